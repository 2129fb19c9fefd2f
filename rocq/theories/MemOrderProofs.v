(** Proofs about memory orders. *)
From Verif Require Import Base Atomics MemOrder.
From Coq Require Import ZArith List Bool Arith Lia.
Import ListNotations.
Local Open Scope Z_scope.

(** Whenever [y] is performed, [x] was performed earlier. *)
Definition first_ (tr : list event) (x y : nat * nat) : Prop :=
  forall j e, nth_error tr j = Some e -> (e_thread e, e_index e) = y ->
  exists j' e', (j' < j)%nat /\ nth_error tr j' = Some e' /\ (e_thread e', e_index e') = x.

Lemma first_trans : forall tr x y z, first_ tr x y -> first_ tr y z -> first_ tr x z.
Proof.
  intros tr x y z H1 H2 j e E I. destruct (H2 j e E I) as (j1 & e1 & L1 & E1 & I1).
  destruct (H1 j1 e1 E1 I1) as (j2 & e2 & L2 & E2 & I2). exists j2, e2. repeat split; auto. lia.
Qed.

Lemma ready_nth : forall l i k a, ready l i = Some (k, a) -> nth_error l i = Some (k, a) /\ forallb (fun x => negb (keeps (snd x) a)) (firstn i l) = true.
Proof.
  unfold ready. intros l i k a H. destruct (nth_error l i) as [[k' b]|]; [|discriminate].
  destruct (forallb _ _) eqn:E; [|discriminate]. inversion H; subst. auto.
Qed.
Lemma NoDup_r : forall A (l1 l2 : list A), NoDup (l1 ++ l2) -> NoDup l2.
Proof. intros A l1. induction l1; intros l2 H; [exact H|]. inversion H; auto. Qed.
Lemma nodup_other : forall (p q : list (nat * access)) k a k' a', NoDup (map fst (p ++ (k, a) :: q)) -> In (k', a') (p ++ q) -> k <> k'.
Proof.
  intros p q k a k' a' H I ->. rewrite map_app in H. cbn in H. apply NoDup_remove_2 in H. apply H. rewrite <- map_app.
  change k' with (fst (k', a')). apply in_map. exact I.
Qed.
Lemma drop_split : forall (l1 l2 : list (nat * access)) x, drop (l1 ++ x :: l2) (length l1) = l1 ++ l2.
Proof.
  intros. unfold drop. rewrite firstn_app, Nat.sub_diag, firstn_all. cbn [firstn]. rewrite app_nil_r. f_equal.
  rewrite skipn_app. replace (S (length l1) - length l1)%nat with 1%nat by lia. rewrite skipn_all2 by lia. reflexivity.
Qed.
Lemma drop_in : forall l i x, In x (drop l i) -> In x l.
Proof.
  intros l i x H. unfold drop in H. rewrite in_app_iff in H. rewrite <- (firstn_skipn i l). rewrite in_app_iff.
  destruct H as [H|H]; [left; exact H|right].
  revert l H. induction i; intros l H; destruct l; cbn in *; auto.
Qed.
Lemma upd_same : forall A (l : list A) t x y, nth_error l t = Some y -> nth_error (upd l t x) t = Some x.
Proof. intros A l. induction l; intros [|t] x y H; cbn in *; try discriminate; eauto. Qed.
Lemma upd_other : forall A (l : list A) t t' x, t <> t' -> nth_error (upd l t x) t' = nth_error l t'.
Proof. intros A l. induction l; intros [|t] [|t'] x H; cbn in *; auto; try congruence. Qed.

(** The ids of a list of accesses that are left are different; taking one away keeps the rest. *)
Lemma drop_nodup : forall l i k a, NoDup (map fst l) -> nth_error l i = Some (k, a) ->
  NoDup (map fst (drop l i)) /\ ~ In k (map fst (drop l i)).
Proof.
  intros l i k a H E. destruct (nth_error_split _ _ E) as (l1 & l2 & -> & <-). rewrite drop_split.
  rewrite map_app in *. cbn in H. split; [exact (NoDup_remove_1 _ _ _ H)|exact (NoDup_remove_2 _ _ _ H)].
Qed.

(** Only accesses that are left are performed. *)
Lemma run_in : forall s m ths tr e t l, run m ths s = Some tr -> In e tr -> nth_error ths t = Some l -> e_thread e = t ->
  In (e_index e, e_acc e) l.
Proof.
  induction s as [|[t' i] s]; intros m ths tr e t l R I N T; cbn in R; [inversion R; subst; destruct I|].
  destruct (nth_error ths t') as [l'|] eqn:N'; [|discriminate].
  destruct (ready l' i) as [[k a]|] eqn:RD; [|discriminate]. destruct (a_if a _) eqn:IF; [|discriminate].
  destruct (run _ _ s) as [tr'|] eqn:R'; [|discriminate]. inversion R; subst tr; clear R.
  destruct (ready_nth _ _ _ _ RD) as [NE _].
  destruct I as [<-|I].
  - cbn in *. subst t. rewrite N' in N. inversion N; subst. eapply nth_error_In; eauto.
  - destruct (Nat.eq_dec t' t) as [->|D].
    + rewrite N' in N; inversion N; subst l'. eapply drop_in. eapply IHs; eauto. eapply upd_same; eauto.
    + eapply IHs; eauto. rewrite upd_other; auto.
Qed.
Lemma run_thread : forall s m ths tr e, run m ths s = Some tr -> In e tr -> exists l, nth_error ths (e_thread e) = Some l.
Proof.
  induction s as [|[t' i] s]; intros m ths tr e R I; cbn in R; [inversion R; subst; destruct I|].
  destruct (nth_error ths t') as [l'|] eqn:N'; [|discriminate].
  destruct (ready l' i) as [[k a]|] eqn:RD; [|discriminate]. destruct (a_if a _) eqn:IF; [|discriminate].
  destruct (run _ _ s) as [tr'|] eqn:R'; [|discriminate]. inversion R; subst tr; clear R.
  destruct I as [<-|I]; [cbn; eauto|].
  destruct (IHs _ _ _ _ R' I) as [l E]. destruct (Nat.eq_dec t' (e_thread e)) as [<-|D]; [eauto|].
  rewrite upd_other in E; eauto.
Qed.

Definition fresh_ids (ths : list (list (nat * access))) : Prop := forall t l, nth_error ths t = Some l -> NoDup (map fst l).
Lemma fresh_upd : forall ths t l i k a, fresh_ids ths -> nth_error ths t = Some l -> nth_error l i = Some (k, a) ->
  fresh_ids (upd ths t (drop l i)).
Proof.
  intros ths t l i k a F N E t' l' N'. destruct (Nat.eq_dec t t') as [<-|D].
  - rewrite (upd_same _ _ _ _ _ N) in N'. inversion N'; subst. eapply drop_nodup; eauto.
  - rewrite upd_other in N' by auto. eauto.
Qed.

(** No access is performed twice. *)
Lemma run_once : forall s m ths tr, run m ths s = Some tr -> fresh_ids ths ->
  forall j1 j2 e1 e2, nth_error tr j1 = Some e1 -> nth_error tr j2 = Some e2 ->
  (e_thread e1, e_index e1) = (e_thread e2, e_index e2) -> j1 = j2.
Proof.
  induction s as [|[t i] s]; intros m ths tr R F j1 j2 e1 e2 E1 E2 I; cbn in R; [inversion R; subst; destruct j1; discriminate|].
  destruct (nth_error ths t) as [l|] eqn:N; [|discriminate].
  destruct (ready l i) as [[k a]|] eqn:RD; [|discriminate]. destruct (a_if a _) eqn:IF; [|discriminate].
  destruct (run _ _ s) as [tr'|] eqn:R'; [|discriminate]. inversion R; subst tr; clear R.
  destruct (ready_nth _ _ _ _ RD) as [NE _].
  assert (X : forall e, In e tr' -> (e_thread e, e_index e) = (t, k) -> False).
  { intros e Ie Eq. inversion Eq. assert (Q := run_in _ _ _ _ _ _ _ R' Ie (upd_same _ _ _ _ _ N) H0).
    apply (in_map fst) in Q. cbn in Q. rewrite H1 in Q. destruct (drop_nodup _ _ _ _ (F _ _ N) NE); contradiction. }
  destruct j1, j2; cbn in *; auto.
  - inversion E1; subst e1. exfalso. eapply X; [eapply nth_error_In; eauto|]. cbn in I. auto.
  - inversion E2; subst e2. exfalso. eapply X; [eapply nth_error_In; eauto|]. cbn in I. auto.
  - f_equal. eapply IHs; eauto. eapply fresh_upd; eauto.
Qed.

(** The main lemma: what has to keep its order keeps it. *)
Lemma run_keeps : forall s m ths tr, run m ths s = Some tr -> fresh_ids ths ->
  forall t l1 l2 l3 k1 k2 a1 a2, nth_error ths t = Some (l1 ++ (k1, a1) :: l2 ++ (k2, a2) :: l3) -> keeps a1 a2 = true ->
  first_ tr (t, k1) (t, k2).
Proof.
  induction s as [|[t' i] s]; intros m ths tr R F t l1 l2 l3 k1 k2 a1 a2 N K; cbn in R.
  { inversion R; subst. intros j e E. destruct j; discriminate. }
  destruct (nth_error ths t') as [l|] eqn:N'; [|discriminate].
  destruct (ready l i) as [[k a]|] eqn:RD; [|discriminate]. destruct (a_if a _) eqn:IF; [|discriminate].
  destruct (run _ _ s) as [tr'|] eqn:R'; [|discriminate]. inversion R; subst tr; clear R.
  destruct (ready_nth _ _ _ _ RD) as [NE RF].
  assert (FU := fresh_upd _ _ _ _ _ _ F N' NE).
  assert (GO : (t', k) <> (t, k2) -> first_ tr' (t, k1) (t, k2) -> first_ (mkEv t' k a (value m (a_loc a)) :: tr') (t, k1) (t, k2)).
  { intros D H [|j] e E I; cbn in E; [inversion E; subst e; cbn in I; congruence|].
    destruct (H j e E I) as (j' & e' & L & E' & I'). exists (S j'), e'. cbn. repeat split; auto. lia. }
  destruct (Nat.eq_dec t' t) as [->|D].
  2:{ apply GO; [congruence|]. eapply IHs; eauto. rewrite upd_other; eauto. }
  rewrite N in N'. inversion N'; subst l; clear N'.
  assert (ND := F _ _ N).
  destruct (nth_error_split _ _ NE) as (p & q & EQ & LP).
  assert (ND' := ND). rewrite EQ in ND'.
  rewrite EQ in RF. rewrite <- LP in RF.
  assert (FN : firstn (length p) (p ++ (k, a) :: q) = p) by (rewrite firstn_app, Nat.sub_diag, firstn_all; cbn; apply app_nil_r).
  rewrite FN in RF.
  assert (UP := upd_same _ _ _ (drop (l1 ++ (k1, a1) :: l2 ++ (k2, a2) :: l3) i) _ N).
  assert (DR : drop (l1 ++ (k1, a1) :: l2 ++ (k2, a2) :: l3) i = p ++ q) by (rewrite EQ, <- LP; apply drop_split).
  rewrite DR in *.
  (* where is (k, a)? *)
  assert (C : (exists l1a l1b, p = l1a /\ l1 = l1a ++ (k, a) :: l1b) \/ (p = l1 /\ (k, a) = (k1, a1)) \/
              (exists u v, p = l1 ++ (k1, a1) :: u /\ l2 ++ (k2, a2) :: l3 = u ++ (k, a) :: v)).
  { clear - EQ. revert l1 EQ. induction p as [|y p IHp]; intros [|x l1] EQ; cbn in *.
    - inversion EQ. right; left; auto.
    - inversion EQ; subst. left. exists [], l1. auto.
    - inversion EQ; subst. right; right. exists p, q. auto.
    - injection EQ as E0 EQ'; subst y. destruct (IHp _ EQ') as [(u & v & -> & ->)|[[-> ?]|(u & v & -> & E)]].
      + left. exists (x :: u), v. auto.
      + right; left; auto.
      + right; right. exists u, v. auto. }
  destruct C as [(u & v & Pu & L1)|[[Pl Ek]|(u & v & Pp & E2)]].
  - (* before a1 *) subst p l1. rewrite <- app_assoc in EQ. cbn in EQ. apply app_inv_head in EQ. inversion EQ; subst q.
    apply GO.
    + intro X. inversion X; subst k. eapply (nodup_other _ _ _ _ _ a2 ND'); [|reflexivity]. rewrite !in_app_iff. cbn. rewrite !in_app_iff. cbn. auto 8.
    + eapply (IHs _ _ _ R' FU t (u ++ v)); [|exact K]. rewrite UP. rewrite <- app_assoc. reflexivity.
  - (* a1 itself *) inversion Ek; subst k a. intros [|j] e E I; cbn in E.
    + inversion E; subst e. cbn in I. inversion I; subst k2. exfalso.
      rewrite map_app in ND. cbn in ND. apply NoDup_remove_2 in ND. apply ND. rewrite in_app_iff. right. rewrite map_app, in_app_iff. right; left; auto.
    + exists 0%nat. eexists. split; [lia|]. split; [reflexivity|reflexivity].
  - (* after a1: not a2 *)
    assert (KA : keeps a1 a = false).
    { rewrite Pp in RF. rewrite forallb_app in RF. cbn in RF. apply andb_true_iff in RF. destruct RF as [_ RF].
      apply andb_true_iff in RF. destruct RF as [RF _]. apply negb_true_iff in RF. exact RF. }
    assert (Q : q = v). { rewrite Pp in EQ. rewrite <- app_assoc in EQ. cbn in EQ. apply app_inv_head in EQ. inversion EQ as [E3].
      rewrite E2 in E3. apply app_inv_head in E3. inversion E3; auto. }
    subst q.
    assert (C2 : (exists u2, u = l2 ++ (k2, a2) :: u2) \/ ((k, a) = (k2, a2)) \/ (exists v1, l2 = u ++ (k, a) :: v1 /\ v = v1 ++ (k2, a2) :: l3)).
    { clear - E2. revert u E2. induction l2 as [|y l2 IHl2]; intros [|x u] E2; cbn in *.
      - inversion E2; auto.
      - inversion E2; subst. left. exists u. auto.
      - inversion E2; subst. right; right. exists l2. auto.
      - injection E2 as E0 E2'; subst y. destruct (IHl2 _ E2') as [(u2 & ->)|[E|(v1 & -> & ->)]]; [left; exists u2; auto|right; left; auto|right; right; exists v1; auto]. }
    destruct C2 as [(u2 & Eu)|[E3|(v1 & Ea & Ev)]].
    + subst u. assert (Nk : k <> k2).
      { eapply (nodup_other _ _ _ _ _ a2 ND'). rewrite Pp, !in_app_iff. cbn. rewrite !in_app_iff. cbn. auto 8. }
      apply GO; [congruence|]. eapply (IHs _ _ _ R' FU t l1 l2 (u2 ++ v)); [|exact K]. rewrite UP, Pp.
      rewrite <- !app_assoc. cbn. rewrite <- app_assoc. reflexivity.
    + inversion E3; subst. congruence.
    + subst. apply GO.
      * intro X. inversion X; subst k. eapply (nodup_other _ _ _ _ _ a2 ND'); [|reflexivity]. rewrite !in_app_iff. cbn. rewrite ?in_app_iff. cbn. auto 8.
      * eapply (IHs _ _ _ R' FU t l1 (u ++ v1) l3); [|exact K]. rewrite UP. f_equal. repeat (rewrite <- app_assoc; cbn [app]). reflexivity.
Qed.

(** ** Programs *)

Lemma numbered_nth : forall p k a, nth_error (numbered p) k = Some a -> a = (k, snd a) /\ nth_error p k = Some (snd a).
Proof.
  intros p. unfold numbered. assert (G : forall (p : list access) n k a, nth_error (combine (seq n (length p)) p) k = Some a -> a = ((n + k)%nat, snd a) /\ nth_error p k = Some (snd a)).
  { clear. induction p as [|x p IH]; intros n [|k] a H; cbn in *; try discriminate.
    - inversion H; subst. cbn. rewrite Nat.add_0_r. auto.
    - destruct (IH (S n) k a H) as [E1 E2]. split; [|exact E2]. rewrite E1. cbn. f_equal. lia. }
  intros k a H. destruct (G p 0%nat k a H) as [E1 E2]. auto.
Qed.
Lemma numbered_nth_inv : forall p k a, nth_error p k = Some a -> nth_error (numbered p) k = Some (k, a).
Proof.
  intros p. unfold numbered. assert (G : forall (p : list access) n k a, nth_error p k = Some a -> nth_error (combine (seq n (length p)) p) k = Some ((n + k)%nat, a)).
  { clear. induction p as [|x p IH]; intros n [|k] a H; cbn in *; try discriminate.
    - inversion H; subst. rewrite Nat.add_0_r. auto.
    - rewrite (IH (S n) k a H). f_equal. f_equal. lia. }
  intros k a H. exact (G p 0%nat k a H).
Qed.
Lemma numbered_ids : forall p, map fst (numbered p) = seq 0 (length p).
Proof.
  intros p. unfold numbered. generalize 0%nat. induction p as [|x p IH]; intros n; cbn; [auto|]. f_equal. apply IH.
Qed.
Lemma fresh_numbered : forall ps, fresh_ids (map numbered ps).
Proof.
  intros ps t l N. rewrite nth_error_map in N. destruct (nth_error ps t); [|discriminate]. inversion N; subst. rewrite numbered_ids. apply seq_NoDup.
Qed.
Lemma split2 : forall A (l : list A) i j x y, nth_error l i = Some x -> nth_error l j = Some y -> (i < j)%nat ->
  exists l1 l2 l3, l = l1 ++ x :: l2 ++ y :: l3.
Proof.
  intros A l i j x y Hi Hj L. destruct (nth_error_split _ _ Hi) as (l1 & r & -> & <-).
  rewrite nth_error_app2 in Hj by lia. destruct (j - length l1)%nat as [|n] eqn:E; [lia|]. cbn in Hj.
  destruct (nth_error_split _ _ Hj) as (l2 & l3 & -> & _). exists l1, l2, l3. auto.
Qed.
Lemma prog_keeps : forall s m ps tr t p k1 k2 a1 a2, run m (map numbered ps) s = Some tr -> nth_error ps t = Some p ->
  nth_error p k1 = Some a1 -> nth_error p k2 = Some a2 -> (k1 < k2)%nat -> keeps a1 a2 = true -> first_ tr (t, k1) (t, k2).
Proof.
  intros s m ps tr t p k1 k2 a1 a2 R N N1 N2 L K.
  destruct (split2 _ _ _ _ _ _ (numbered_nth_inv _ _ _ N1) (numbered_nth_inv _ _ _ N2) L) as (l1 & l2 & l3 & E).
  eapply run_keeps; [exact R|apply fresh_numbered| |exact K]. rewrite nth_error_map, N. cbn [option_map]. rewrite E. reflexivity.
Qed.
Lemma event_prog : forall s m ps tr e, run m (map numbered ps) s = Some tr -> In e tr ->
  exists p, nth_error ps (e_thread e) = Some p /\ nth_error p (e_index e) = Some (e_acc e).
Proof.
  intros s m ps tr e R I. destruct (run_thread _ _ _ _ _ R I) as [l E]. assert (Q := run_in _ _ _ _ _ _ _ R I E eq_refl).
  rewrite nth_error_map in E. destruct (nth_error ps (e_thread e)) as [p|] eqn:N; [|discriminate]. inversion E; subst l.
  exists p. split; [auto|]. apply In_nth_error in Q. destruct Q as [k Q]. destruct (numbered_nth _ _ _ Q) as [E1 E2]. cbn in *.
  inversion E1; subst k. auto.
Qed.

(** ** The operations *)

Definition releases (f : op) (o : memory_order) : bool :=
  match f with
  | OStore _ | ORmw _ | OCas _ _ _ true => match o with Release | AcqRel | SeqCst => true | _ => false end
  | _ => false
  end.
Definition acquires (f : op) (o : memory_order) : bool :=
  match (match f with OCas _ _ fo false => fo | _ => o end), f with
  | _, OStore _ => false
  | Consume, _ | Acquire, _ | AcqRel, _ | SeqCst, _ => true
  | _, _ => false
  end.

Lemma app_nth : forall A (l1 l2 : list A) k x, nth_error l2 k = Some x -> nth_error (l1 ++ l2) (length l1 + k) = Some x.
Proof. intros. rewrite nth_error_app2 by lia. replace (length l1 + k - length l1)%nat with k by lia. auto. Qed.
Lemma app_nth1 : forall A (l1 l2 : list A) k x, nth_error l1 k = Some x -> nth_error (l1 ++ l2) k = Some x.
Proof. intros. rewrite nth_error_app1; auto. apply nth_error_Some. congruence. Qed.
Lemma keeps_fence : forall a, keeps a thread_fence = true.
Proof. intros a. unfold keeps. cbn. destruct (a_loc a); cbn; auto. Qed.
Lemma fence_keeps : forall a, keeps thread_fence a = true.
Proof. intros a. unfold keeps. cbn. reflexivity. Qed.
Lemma keeps_rel : forall a b, a_rel b = true -> keeps a b = true.
Proof. intros a b H. unfold keeps. rewrite H, !orb_true_r. auto. Qed.
Lemma keeps_acq : forall a b, a_acq a = true -> keeps a b = true.
Proof. intros a b H. unfold keeps. rewrite H, !orb_true_r. auto. Qed.
Lemma keeps_sc : forall a b, a_sc a = true -> a_sc b = true -> keeps a b = true.
Proof. intros a b H H'. unfold keeps. rewrite H, H', !orb_true_r. auto. Qed.

Definition honoured (i : impl) (f : op) : Prop := i = IPosix \/ i = ICuda /\ (f = OLoad \/ exists v, f = OStore v).

Lemma release_thm : forall i x f o ps t pre post s m tr, honoured i f -> releases f o = true ->
  nth_error ps t = Some (pre ++ lower i x f o ++ post) -> run m (map numbered ps) s = Some tr ->
  forall k km a, (k < length pre)%nat -> nth_error (lower i x f o) km = Some a -> a_loc a = Some x ->
  first_ tr (t, k) (t, (length pre + km)%nat).
Proof.
  intros i x f o ps t pre post s m tr H RL N R k km a L NM LO.
  destruct (nth_error pre k) as [b|] eqn:NB; [|apply nth_error_None in NB; lia].
  assert (NB' : nth_error (pre ++ lower i x f o ++ post) k = Some b) by (apply app_nth1; auto).
  assert (NA : nth_error (pre ++ lower i x f o ++ post) (length pre + km) = Some a) by (apply app_nth, app_nth1; auto).
  destruct H as [->|[-> H]].
  - assert (RA : a_rel a = true).
    { destruct f as [v| |g|e d fo [|]]; cbn in RL; try discriminate; destruct o; try discriminate;
      (destruct km; cbn in NM; [inversion NM; reflexivity|destruct km; discriminate]). }
    eapply prog_keeps; eauto; [lia|]. apply keeps_rel; auto.
  - destruct H as [->|[v ->]]; [discriminate|].
    destruct km as [|[|[|]]]; cbn in NM; try discriminate; [inversion NM; subst a; discriminate|].
    assert (NF : nth_error (pre ++ lower ICuda x (OStore v) o ++ post) (length pre + 0) = Some thread_fence) by (apply app_nth; reflexivity).
    apply (first_trans _ _ (t, (length pre + 0)%nat)).
    + eapply prog_keeps; [exact R|exact N| | | |apply keeps_fence]; [eassumption|exact NF|lia].
    + eapply prog_keeps; [exact R|exact N| | | |apply fence_keeps]; [exact NF|eassumption|lia].
Qed.
Lemma acquire_thm : forall i x f o ps t pre post s m tr, honoured i f -> acquires f o = true ->
  nth_error ps t = Some (pre ++ lower i x f o ++ post) -> run m (map numbered ps) s = Some tr ->
  forall k km a, (length pre + length (lower i x f o) <= k)%nat -> nth_error (lower i x f o) km = Some a -> a_loc a = Some x ->
  first_ tr (t, (length pre + km)%nat) (t, k).
Proof.
  intros i x f o ps t pre post s m tr H RL N R k km a L NM LO.
  destruct (nth_error (pre ++ lower i x f o ++ post) k) as [b|] eqn:NB.
  2:{ intros j e E I. apply nth_error_In in E. destruct (event_prog _ _ _ _ _ R E) as (p & N1 & N2). inversion I; subst t k.
      rewrite N in N1. inversion N1; subst p. congruence. }
  assert (NA : nth_error (pre ++ lower i x f o ++ post) (length pre + km) = Some a) by (apply app_nth, app_nth1; auto).
  assert (KM : (km < length (lower i x f o))%nat) by (apply nth_error_Some; congruence).
  destruct H as [->|[-> H]].
  - assert (RA : a_acq a = true).
    { destruct f as [v| |g|e d fo [|]]; cbn in RL.
      1: destruct o; discriminate.
      all: try (destruct o; try discriminate; (destruct km; cbn in NM; [inversion NM; reflexivity|destruct km; discriminate])).
      destruct fo; try discriminate; (destruct km; cbn in NM; [inversion NM; reflexivity|destruct km; discriminate]). }
    eapply prog_keeps; eauto; [lia|]. apply keeps_acq; auto.
  - destruct H as [->|[v ->]]; [|destruct o; discriminate].
    destruct km as [|[|[|[|]]]]; cbn in NM; try discriminate; inversion NM; subst a; try discriminate.
    assert (NF : nth_error (pre ++ lower ICuda x OLoad o ++ post) (length pre + 2) = Some thread_fence) by (apply app_nth; reflexivity).
    cbn in L.
    apply (first_trans _ _ (t, (length pre + 2)%nat)).
    + eapply prog_keeps; [exact R|exact N| | | |apply keeps_fence]; [eassumption|exact NF|lia].
    + eapply prog_keeps; [exact R|exact N| | | |apply fence_keeps]; [exact NF|eassumption|lia].
Qed.
Definition seq_cst (f : op) : Prop := match f with OCas _ _ fo false => fo = SeqCst | _ => True end.
Lemma sc_thm : forall i x f y g ps t pre mid post s m tr, honoured i f -> honoured i g -> seq_cst f -> seq_cst g ->
  nth_error ps t = Some (pre ++ lower i x f SeqCst ++ mid ++ lower i y g SeqCst ++ post) -> run m (map numbered ps) s = Some tr ->
  forall k1 k2 a b, nth_error (lower i x f SeqCst) k1 = Some a -> a_loc a = Some x -> nth_error (lower i y g SeqCst) k2 = Some b -> a_loc b = Some y ->
  first_ tr (t, (length pre + k1)%nat) (t, (length pre + (length (lower i x f SeqCst) + (length mid + k2)))%nat).
Proof.
  intros i x f y g ps t pre mid post s m tr Hf Hg Sf Sg N R k1 k2 a b Na La Nb Lb.
  assert (K1 : (k1 < length (lower i x f SeqCst))%nat) by (apply nth_error_Some; congruence).
  assert (NA := app_nth _ pre _ _ _ (app_nth1 _ _ (mid ++ lower i y g SeqCst ++ post) _ _ Na)).
  assert (NB := app_nth _ pre _ _ _ (app_nth _ (lower i x f SeqCst) _ _ _ (app_nth _ mid _ _ _ (app_nth1 _ _ post _ _ Nb)))).
  assert (SC : forall z h k c, seq_cst h -> nth_error (lower IPosix z h SeqCst) k = Some c -> a_sc c = true).
  { intros z h k c S Nc. destruct k; [|destruct h as [| | |? ? ? [|]], k; discriminate].
    destruct h as [v| |h|e d fo [|]]; cbn in S; try subst fo; inversion Nc; reflexivity. }
  destruct Hf as [->|[-> Hf]].
  - eapply prog_keeps; eauto; [lia|]. apply keeps_sc; [exact (SC x f k1 a Sf Na)|exact (SC y g k2 b Sg Nb)].
  - destruct Hg as [X|[_ Hg]]; [discriminate|].
    assert (Z : exists k2', k2 = S k2' /\ nth_error (lower ICuda y g SeqCst) 0 = Some thread_fence).
    { destruct Hg as [->|[v ->]]; (destruct k2 as [|k2]; [cbn in Nb; inversion Nb; subst b; discriminate|exists k2; auto]). }
    destruct Z as (k2' & -> & NF0).
    assert (NF := app_nth _ pre _ _ _ (app_nth _ (lower ICuda x f SeqCst) _ _ _ (app_nth _ mid _ _ _ (app_nth1 _ _ post _ _ NF0)))).
    apply (first_trans _ _ (t, (length pre + (length (lower ICuda x f SeqCst) + (length mid + 0)))%nat)).
    + eapply prog_keeps; [exact R|exact N| | | |apply keeps_fence]; [eassumption|exact NF|lia].
    + eapply prog_keeps; [exact R|exact N| | | |apply fence_keeps]; [exact NF|eassumption|lia].
Qed.

(** ** Values *)

Definition only (w : nat * nat) (x : nat) (ths : list (list (nat * access))) : Prop :=
  forall t l k a, nth_error ths t = Some l -> In (k, a) l -> a_loc a = Some x -> (t, k) <> w -> forall z, a_new a z = z.
Lemma only_upd : forall w x ths t l i, only w x ths -> nth_error ths t = Some l -> only w x (upd ths t (drop l i)).
Proof.
  intros w x ths t l i H N t' l' k a N' I. destruct (Nat.eq_dec t t') as [<-|D].
  - rewrite (upd_same _ _ _ _ _ N) in N'. inversion N'; subst l'. apply drop_in in I. eapply H; eauto.
  - rewrite upd_other in N' by auto. eapply H; eauto.
Qed.
Lemma store_same : forall m x v y, store_to m (Some x) v y = if Nat.eqb y x then v else m y.
Proof. reflexivity. Qed.
Lemma store_skip : forall m o v x, o <> Some x -> store_to m o v x = m x.
Proof. intros m [y|] v x H; cbn; auto. destruct (Nat.eqb_spec x y); [congruence|auto]. Qed.

Lemma before_write : forall s m ths tr w x, run m ths s = Some tr -> only w x ths ->
  forall j e, nth_error tr j = Some e -> a_loc (e_acc e) = Some x ->
  (forall j' e', (j' < j)%nat -> nth_error tr j' = Some e' -> (e_thread e', e_index e') <> w) -> e_old e = m x.
Proof.
  induction s as [|[t i] s]; intros m ths tr w x R O j e E L B; cbn in R; [inversion R; subst; destruct j; discriminate|].
  destruct (nth_error ths t) as [l|] eqn:N; [|discriminate].
  destruct (ready l i) as [[k a]|] eqn:RD; [|discriminate]. destruct (a_if a _) eqn:IF; [|discriminate].
  destruct (run _ _ s) as [tr'|] eqn:R'; [|discriminate]. inversion R; subst tr; clear R.
  destruct (ready_nth _ _ _ _ RD) as [NE _].
  destruct j as [|j]; cbn in E.
  - inversion E; subst e. cbn in *. rewrite L. reflexivity.
  - rewrite (IHs _ _ _ w x R' (only_upd _ _ _ _ _ _ O N) j e E L).
    + destruct (a_loc a) as [y|] eqn:LA; [|reflexivity]. rewrite store_same. destruct (Nat.eqb_spec x y) as [->|]; [|reflexivity].
      cbn. eapply O; eauto; [eapply nth_error_In; eauto|]. apply (B 0%nat (mkEv t k a (value m (Some y)))); [lia|]. cbn. reflexivity.
    + intros j' e' Lj Ej. apply (B (S j') e'); [lia|exact Ej].
Qed.
Lemma after_write : forall s m ths tr w x v, run m ths s = Some tr -> fresh_ids ths -> only w x ths ->
  (forall l a, nth_error ths (fst w) = Some l -> In (snd w, a) l -> a_loc a = Some x /\ forall z, a_new a z = v) ->
  forall j e j' e', nth_error tr j = Some e -> a_loc (e_acc e) = Some x -> (j' < j)%nat -> nth_error tr j' = Some e' ->
  (e_thread e', e_index e') = w -> e_old e = v.
Proof.
  induction s as [|[t i] s]; intros m ths tr w x v R F O W j e j' e' E L Lj E' I; cbn in R; [inversion R; subst; destruct j; discriminate|].
  destruct (nth_error ths t) as [l|] eqn:N; [|discriminate].
  destruct (ready l i) as [[k a]|] eqn:RD; [|discriminate]. destruct (a_if a _) eqn:IF; [|discriminate].
  destruct (run _ _ s) as [tr'|] eqn:R'; [|discriminate]. inversion R; subst tr.
  destruct (ready_nth _ _ _ _ RD) as [NE _].
  destruct j as [|j]; [lia|]. cbn in E.
  destruct j' as [|j']; cbn in E'.
  - inversion E'; subst e'. cbn in I. subst w. cbn in W. destruct (W l a N (nth_error_In _ _ NE)) as [LA V].
    rewrite (before_write _ _ _ _ (t, k) x R' (only_upd _ _ _ _ _ _ O N) j e E L).
    + rewrite LA, store_same, Nat.eqb_refl. apply V.
    + intros j1 e1 L1 E1 I1.
      assert (Q := run_once ((t, i) :: s) m ths (mkEv t k a (value m (a_loc a)) :: tr')). cbn in Q. rewrite N, RD, IF, R' in Q.
      specialize (Q eq_refl F 0%nat (S j1) _ e1 eq_refl E1). cbn in Q. rewrite I1 in Q. specialize (Q eq_refl). discriminate.
  - eapply (IHs _ _ _ w x v R'); eauto; [eapply fresh_upd; eauto|apply only_upd; auto| |lia].
    intros l' a' N' I'. destruct (Nat.eq_dec t (fst w)) as [D|D].
    + subst t. rewrite (upd_same _ _ _ _ _ N) in N'. inversion N'; subst l'. apply (W l a' N). eapply drop_in; eauto.
    + rewrite upd_other in N' by auto. eauto.
Qed.

Lemma only_numbered : forall w x ps,
  (forall t p k a, nth_error ps t = Some p -> nth_error p k = Some a -> a_loc a = Some x -> (t, k) <> w -> forall z, a_new a z = z) ->
  only w x (map numbered ps).
Proof.
  intros w x ps H t l k a N I LA D. rewrite nth_error_map in N. destruct (nth_error ps t) as [p|] eqn:NP; [|discriminate].
  inversion N; subst l. apply In_nth_error in I. destruct I as [n I]. destruct (numbered_nth _ _ _ I) as [E1 E2]. cbn in *. inversion E1; subst n. eauto.
Qed.

Lemma message_thm : forall i x f o g o' d v ps t1 t2 pre1 post1 pre2 post2 s m tr,
  honoured i f -> honoured i g -> releases f o = true -> acquires g o' = true ->
  nth_error ps t1 = Some (pre1 ++ lower i x f o ++ post1) -> nth_error ps t2 = Some (pre2 ++ lower i x g o' ++ post2) ->
  forall kf kg kd kr a b c,
  nth_error (lower i x f o) kf = Some a -> a_loc a = Some x -> nth_error (lower i x g o') kg = Some b -> a_loc b = Some x ->
  nth_error pre1 kd = Some (plain_write d v) -> nth_error post2 kr = Some c -> a_loc c = Some d ->
  (forall t p k a', nth_error ps t = Some p -> nth_error p k = Some a' -> a_loc a' = Some x -> (t, k) <> (t1, (length pre1 + kf)%nat) -> forall z, a_new a' z = z) ->
  (forall t p k a', nth_error ps t = Some p -> nth_error p k = Some a' -> a_loc a' = Some d -> (t, k) <> (t1, kd) -> forall z, a_new a' z = z) ->
  run m (map numbered ps) s = Some tr ->
  forall eg er, In eg tr -> (e_thread eg, e_index eg) = (t2, (length pre2 + kg)%nat) -> e_old eg <> m x ->
  In er tr -> (e_thread er, e_index er) = (t2, (length pre2 + (length (lower i x g o') + kr))%nat) -> e_old er = v.
Proof.
  intros i x f o g o' d v ps t1 t2 pre1 post1 pre2 post2 s m tr Hf Hg Rf Ag N1 N2 kf kg kd kr a b c Na La Nb Lb Nd Nr Lc Ox Od R eg er Ig Eg Vg Ir Er.
  apply In_nth_error in Ig. destruct Ig as [jg Jg]. apply In_nth_error in Ir. destruct Ir as [jr Jr].
  assert (NG := app_nth _ pre2 _ _ _ (app_nth1 _ _ post2 _ _ Nb)).
  assert (NR := app_nth _ pre2 _ _ _ (app_nth _ (lower i x g o') _ _ _ Nr)).
  assert (Lg : a_loc (e_acc eg) = Some x).
  { destruct (event_prog _ _ _ _ _ R (nth_error_In _ _ Jg)) as (p & P1 & P2). inversion Eg as [[T1 T2]]. rewrite T1, N2 in P1. inversion P1; subst p.
    rewrite T2, NG in P2. inversion P2. congruence. }
  assert (Lr : a_loc (e_acc er) = Some d).
  { destruct (event_prog _ _ _ _ _ R (nth_error_In _ _ Jr)) as (p & P1 & P2). inversion Er as [[T1 T2]]. rewrite T1, N2 in P1. inversion P1; subst p.
    rewrite T2, NR in P2. inversion P2. congruence. }
  (* the publication was performed *)
  assert (PB : exists jf ef, (jf < jg)%nat /\ nth_error tr jf = Some ef /\ (e_thread ef, e_index ef) = (t1, (length pre1 + kf)%nat)).
  { assert (D : forall n, (exists jf ef, (jf < n)%nat /\ nth_error tr jf = Some ef /\ (e_thread ef, e_index ef) = (t1, (length pre1 + kf)%nat)) \/
        (forall j' e', (j' < n)%nat -> nth_error tr j' = Some e' -> (e_thread e', e_index e') <> (t1, (length pre1 + kf)%nat))).
    { induction n as [|n [(jf & ef & A & B & C)|H]]; [right; intros; lia|left; exists jf, ef; split; [lia|]; split; [exact B|exact C]|].
      destruct (nth_error tr n) as [e'|] eqn:En.
      - destruct (Nat.eq_dec (e_thread e') t1) as [A|A]; [destruct (Nat.eq_dec (e_index e') (length pre1 + kf)) as [B|B]|].
        + left. exists n, e'. split; [lia|]. split; [exact En|congruence].
        + right. intros j' e2 L E. destruct (Nat.eq_dec j' n) as [->|]; [rewrite En in E; inversion E; congruence|apply (H j'); auto; lia].
        + right. intros j' e2 L E. destruct (Nat.eq_dec j' n) as [->|]; [rewrite En in E; inversion E; congruence|apply (H j'); auto; lia].
      - right. intros j' e2 L E. destruct (Nat.eq_dec j' n) as [->|]; [congruence|apply (H j'); auto; lia]. }
    destruct (D jg) as [X|X]; [exact X|]. exfalso. apply Vg.
    eapply before_write; eauto. apply only_numbered. exact Ox. }
  destruct PB as (jf & ef & Lf & Jf & If).
  assert (KD : (kd < length pre1)%nat) by (apply nth_error_Some; congruence).
  destruct (release_thm i x f o ps t1 pre1 post1 s m tr Hf Rf N1 R kd kf a KD Na La jf ef Jf If) as (jd & ed & Ld & Jd & Id).
  destruct (acquire_thm i x g o' ps t2 pre2 post2 s m tr Hg Ag N2 R (length pre2 + (length (lower i x g o') + kr)) kg b ltac:(lia) Nb Lb jr er Jr Er) as (jg' & eg' & Lg' & Jg' & Ig').
  assert (X : jg' = jg) by (eapply run_once; [exact R|apply fresh_numbered|exact Jg'|exact Jg|congruence]). subst jg'.
  apply (after_write _ _ _ _ (t1, kd) d v R (fresh_numbered _)) with (j := jr) (j' := jd) (e' := ed); auto; [apply only_numbered; exact Od| |lia].
  cbn [fst snd]. intros l a' Nl Il. rewrite nth_error_map, N1 in Nl. cbn in Nl. inversion Nl; subst l.
  apply In_nth_error in Il. destruct Il as [n Il]. destruct (numbered_nth _ _ _ Il) as [E1 E2]. cbn in E1, E2. inversion E1; subst n.
  rewrite (app_nth1 _ _ _ _ _ Nd) in E2. inversion E2. split; reflexivity.
Qed.

(** ** The statements of PropMemOrder.v *)

Lemma releases_in : forall f o, In o [Release; AcqRel; SeqCst] -> f <> OLoad -> (forall e d fo, f <> OCas e d fo false) -> releases f o = true.
Proof.
  intros f o I H1 H2. destruct f as [v| |g|e d fo [|]]; cbn; try congruence; try (destruct o; cbn in I; auto; intuition discriminate).
Qed.
Lemma acquires_in : forall f o, In (match f with OCas _ _ failure false => failure | _ => o end) [Consume; Acquire; AcqRel; SeqCst] ->
  (forall v, f <> OStore v) -> acquires f o = true.
Proof.
  intros f o I H. unfold acquires. destruct f as [v| |g|e d fo [|]]; [exfalso; eapply H; eauto| | | |];
    (match goal with |- match ?x with _ => _ end = _ => destruct x end); auto; cbn in I; intuition discriminate.
Qed.
Lemma release_ord : forall i x f o ps t pre post s m tr,
  i = IPosix \/ i = ICuda /\ (f = OLoad \/ exists v, f = OStore v) ->
  In o [Release; AcqRel; SeqCst] -> f <> OLoad -> (forall e d fo, f <> OCas e d fo false) ->
  nth_error ps t = Some (pre ++ lower i x f o ++ post) -> run m (map numbered ps) s = Some tr ->
  forall k km a, (k < length pre)%nat -> nth_error (lower i x f o) km = Some a -> a_loc a = Some x ->
  forall j e, nth_error tr j = Some e -> e_thread e = t -> e_index e = (length pre + km)%nat ->
  exists j' e', (j' < j)%nat /\ nth_error tr j' = Some e' /\ e_thread e' = t /\ e_index e' = k.
Proof.
  intros i x f o ps t pre post s m tr H I1 I2 I3 N R k km a L Na La j e E T K.
  destruct (release_thm i x f o ps t pre post s m tr H (releases_in f o I1 I2 I3) N R k km a L Na La j e E) as (j' & e' & A & B & C); [congruence|].
  inversion C. exists j', e'. auto.
Qed.
Lemma acquire_ord : forall i x f o ps t pre post s m tr,
  i = IPosix \/ i = ICuda /\ (f = OLoad \/ exists v, f = OStore v) ->
  In (match f with OCas _ _ failure false => failure | _ => o end) [Consume; Acquire; AcqRel; SeqCst] -> (forall v, f <> OStore v) ->
  nth_error ps t = Some (pre ++ lower i x f o ++ post) -> run m (map numbered ps) s = Some tr ->
  forall k km a, (length pre + length (lower i x f o) <= k)%nat -> nth_error (lower i x f o) km = Some a -> a_loc a = Some x ->
  forall j e, nth_error tr j = Some e -> e_thread e = t -> e_index e = k ->
  exists j' e', (j' < j)%nat /\ nth_error tr j' = Some e' /\ e_thread e' = t /\ e_index e' = (length pre + km)%nat.
Proof.
  intros i x f o ps t pre post s m tr H I1 I2 N R k km a L Na La j e E T K.
  destruct (acquire_thm i x f o ps t pre post s m tr H (acquires_in f o I1 I2) N R k km a L Na La j e E) as (j' & e' & A & B & C); [congruence|].
  inversion C. exists j', e'. auto.
Qed.
Lemma sc_ord : forall i x f y g ps t pre mid post s m tr,
  (forall h, h = f \/ h = g -> (i = IPosix \/ i = ICuda /\ (h = OLoad \/ exists v, h = OStore v)) /\
     match h with OCas _ _ failure false => failure = SeqCst | _ => True end) ->
  nth_error ps t = Some (pre ++ lower i x f SeqCst ++ mid ++ lower i y g SeqCst ++ post) -> run m (map numbered ps) s = Some tr ->
  forall k1 k2 a b, nth_error (lower i x f SeqCst) k1 = Some a -> a_loc a = Some x -> nth_error (lower i y g SeqCst) k2 = Some b -> a_loc b = Some y ->
  forall j e, nth_error tr j = Some e -> e_thread e = t -> e_index e = (length pre + (length (lower i x f SeqCst) + (length mid + k2)))%nat ->
  exists j' e', (j' < j)%nat /\ nth_error tr j' = Some e' /\ e_thread e' = t /\ e_index e' = (length pre + k1)%nat.
Proof.
  intros i x f y g ps t pre mid post s m tr H N R k1 k2 a b Na La Nb Lb j e E T K.
  destruct (H f (or_introl eq_refl)) as [Hf Sf]. destruct (H g (or_intror eq_refl)) as [Hg Sg].
  destruct (sc_thm i x f y g ps t pre mid post s m tr Hf Hg Sf Sg N R k1 k2 a b Na La Nb Lb j e E) as (j' & e' & A & B & C); [congruence|].
  inversion C. exists j', e'. auto.
Qed.
Lemma message_ord : forall i x f o g o' d v ps t1 t2 pre1 post1 pre2 post2 s m tr,
  (forall h, h = f \/ h = g -> i = IPosix \/ i = ICuda /\ (h = OLoad \/ exists w, h = OStore w)) ->
  In o [Release; AcqRel; SeqCst] -> f <> OLoad -> (forall e d' fo, f <> OCas e d' fo false) ->
  In (match g with OCas _ _ failure false => failure | _ => o' end) [Consume; Acquire; AcqRel; SeqCst] -> (forall w, g <> OStore w) ->
  nth_error ps t1 = Some (pre1 ++ lower i x f o ++ post1) -> nth_error ps t2 = Some (pre2 ++ lower i x g o' ++ post2) ->
  forall kf kg kd kr a b c,
  nth_error (lower i x f o) kf = Some a -> a_loc a = Some x -> nth_error (lower i x g o') kg = Some b -> a_loc b = Some x ->
  nth_error pre1 kd = Some (plain_write d v) -> nth_error post2 kr = Some c -> a_loc c = Some d ->
  (forall t p k a', nth_error ps t = Some p -> nth_error p k = Some a' ->
     a_loc a' = Some x /\ (t, k) <> (t1, (length pre1 + kf)%nat) \/ a_loc a' = Some d /\ (t, k) <> (t1, kd) -> forall z, a_new a' z = z) ->
  run m (map numbered ps) s = Some tr ->
  forall eg er, In eg tr -> e_thread eg = t2 -> e_index eg = (length pre2 + kg)%nat -> e_old eg <> m x ->
  In er tr -> e_thread er = t2 -> e_index er = (length pre2 + (length (lower i x g o') + kr))%nat -> e_old er = v.
Proof.
  intros i x f o g o' d v ps t1 t2 pre1 post1 pre2 post2 s m tr H O1 O2 O3 A1 A2 N1 N2 kf kg kd kr a b c Na La Nb Lb Nd Nr Lc C R eg er Ig Tg Eg Vg Ir Tr Er.
  eapply (message_thm i x f o g o' d v ps t1 t2 pre1 post1 pre2 post2 s m tr (H f (or_introl eq_refl)) (H g (or_intror eq_refl))
    (releases_in f o O1 O2 O3) (acquires_in g o' A1 A2) N1 N2 kf kg kd kr a b c Na La Nb Lb Nd Nr Lc) with (eg := eg);
    [intros; eapply C; eauto|intros; eapply C; eauto|exact R|exact Ig|congruence|exact Vg|exact Ir|congruence].
Qed.

Lemma lower_effect : forall i x f o,
  (exists pre a post, lower i x f o = pre ++ a :: post /\ a_loc a = Some x /\
     (forall b, In b (pre ++ post) -> a_loc b = None) /\
     forall z,
       match f with
       | OStore v => a_if a z = true /\ a_new a z = v
       | OLoad => a_if a z = true /\ a_new a z = z
       | ORmw g => a_if a z = true /\ a_new a z = g z
       | OCas e d _ true => (a_if a z = true <-> z = e) /\ a_new a z = d
       | OCas e d _ false => (a_if a z = true <-> z <> e) /\ a_new a z = z
       end).
Proof.
  intros i x f o. destruct i, f as [v| |g|e d fo [|]];
    first [ eexists [], _, []; split; [reflexivity|]
          | eexists [_], _, []; split; [reflexivity|]
          | eexists [_], _, [_]; split; [reflexivity|] ];
    (split; [reflexivity|]); (split; [cbn; intros b Hb; decompose [or] Hb; subst; try reflexivity; contradiction|]);
    intros z; cbn; (split; [|reflexivity]); try reflexivity.
  all: try apply Z.eqb_eq.
  all: rewrite negb_true_iff; apply Z.eqb_neq.
Qed.

Lemma lower_unordered : forall i x f o a,
  i = ICuda /\ f <> OLoad /\ (forall v, f <> OStore v) \/ i = ISyclCustom ->
  In a (lower i x f o) -> a_loc a = Some x /\ a_acq a = false /\ a_rel a = false /\ a_sc a = false.
Proof.
  intros i x f o a H I. destruct i, f as [v| |g|e d fo [|]]; cbn in I;
    try (destruct H as [(H & H1 & H2)|H]; [discriminate H|discriminate H]);
    try (destruct H as [(_ & H1 & H2)|H]; [|discriminate H]; first [exfalso; apply H1; reflexivity|exfalso; apply (H2 v); reflexivity|idtac]);
    destruct I as [<-|[]]; repeat split; reflexivity.
Qed.
