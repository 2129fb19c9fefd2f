(** Proofs about Atomics.v. *)
From Verif Require Import Atomics BaseLemmas.
From Coq Require Import Permutation Arith.

(** ** What one call means on its own *)
Definition spec_new (w : Z) (o : aop) (v : Z) : Z :=
  match o with
  | AStore d | AExchange d => d
  | ALoad => v
  | AAdd d => (v + d) mod 2 ^ w
  | ASub d => (v - d) mod 2 ^ w
  | AAnd d => Z.land v d
  | AOr d => Z.lor v d
  | AXor d => Z.lxor v d
  end.
Definition spec_ret (o : aop) (v : Z) : option Z := match o with AStore _ => None | _ => Some v end.

(** A log of calls (thread, call, returned value) made one after the other. *)
Notation entry := (nat * aop * option Z)%type.
Inductive legal (w : Z) : Z -> list entry -> Z -> Prop :=
| legal_nil v : legal w v [] v
| legal_call v i o log v' :
    legal w (spec_new w o v) log v' -> legal w v ((i, o, spec_ret o v) :: log) v'.

(** The calls of thread [i] in a log, with their results. *)
Definition calls_of (i : nat) (log : list entry) : list (aop * option Z) :=
  map (fun e => (snd (fst e), snd e)) (filter (fun e => Nat.eqb (fst (fst e)) i) log).

(** The log explains the state: its calls, made one after the other, lead to the value in
    the cell, and per thread it holds the calls already finished, in program order, with
    the results the thread got. *)
Definition explains (w v0 : Z) (progs : list (list aop)) (log : list entry) (s : astate) : Prop :=
  legal w v0 log (a_cell s) /\
  length (a_thr s) = length progs /\
  Forall (fun e => (fst (fst e) < length progs)%nat) log /\
  (forall i p t, nth_error progs i = Some p -> nth_error (a_thr s) i = Some t ->
     p = map fst (calls_of i log) ++ t_todo t /\ t_res t = map snd (calls_of i log)).

Lemma legal_snoc w v log v' i o : legal w v log v' -> legal w v (log ++ [(i, o, spec_ret o v')]) (spec_new w o v').
Proof. induction 1; cbn [app]; constructor; auto. constructor. Qed.

Lemma calls_app i l1 l2 : calls_of i (l1 ++ l2) = calls_of i l1 ++ calls_of i l2.
Proof. unfold calls_of. now rewrite filter_app, map_app. Qed.

Lemma explains_init w v progs : explains w v progs [] (a_init v progs).
Proof.
  unfold explains, a_init. cbn [a_cell a_thr]. split; [constructor|]. split; [apply map_length|]. split; [constructor|].
  intros i p t Hp Ht. rewrite nth_error_map, Hp in Ht. cbn in Ht. injection Ht as <-. auto.
Qed.

(** A step that finishes no call. *)
Lemma explains_same w v0 progs log s i t t' :
  explains w v0 progs log s -> nth_error (a_thr s) i = Some t ->
  t_todo t' = t_todo t -> t_res t' = t_res t ->
  explains w v0 progs log (mkA (a_cell s) (upd (a_thr s) i t')).
Proof.
  intros (L & Len & B & H) Ht E1 E2. unfold explains. cbn [a_cell a_thr].
  split; [auto|]. split; [now rewrite upd_length|]. split; [auto|].
  intros j p u Hp Hu. destruct (Nat.eq_dec j i) as [->|Ne].
  - rewrite nth_error_upd_eq in Hu by (eapply nth_error_lt; eauto). injection Hu as <-. rewrite E1, E2. eauto.
  - rewrite nth_error_upd_ne in Hu by auto. eauto.
Qed.

(** A step that finishes one call. *)
Lemma explains_call w v0 progs log s i t o rest :
  explains w v0 progs log s -> nth_error (a_thr s) i = Some t -> t_todo t = o :: rest ->
  explains w v0 progs (log ++ [(i, o, spec_ret o (a_cell s))])
    (mkA (spec_new w o (a_cell s)) (upd (a_thr s) i (mkT rest None (t_res t ++ [spec_ret o (a_cell s)])))).
Proof.
  intros (L & Len & B & H) Ht E. unfold explains. cbn [a_cell a_thr].
  assert (Hi : (i < length progs)%nat) by (rewrite <- Len; eapply nth_error_lt; eauto).
  split; [now apply legal_snoc|]. split; [now rewrite upd_length|]. split; [apply Forall_app; auto|].
  intros j p u Hp Hu. rewrite calls_app, !map_app. destruct (Nat.eq_dec j i) as [->|Ne].
  - rewrite nth_error_upd_eq in Hu by (rewrite Len; auto). injection Hu as <-. cbn [t_todo t_res].
    destruct (H i p t Hp Ht) as [E1 E2]. unfold calls_of at 2 4. cbn [filter fst snd map]. rewrite Nat.eqb_refl.
    cbn [map fst snd]. rewrite <- app_assoc, E1, E, <- E2. split; auto.
  - rewrite nth_error_upd_ne in Hu by auto. unfold calls_of at 2 4. cbn [filter fst snd map].
    replace (Nat.eqb i j) with false by (symmetry; apply Nat.eqb_neq; auto). cbn [map]. rewrite !app_nil_r. eauto.
Qed.

Lemma desired_spec w o v : desired w o v = spec_new w o v.
Proof. now destruct o. Qed.
Lemma result_spec o v : result o v = spec_ret o v.
Proof. now destruct o. Qed.

Lemma cas_zero c : cas_atomic c 0 0 = (c =? 0, c, c).
Proof. unfold cas_atomic. destruct (Z.eqb_spec c 0); subst; auto. Qed.

Lemma a_step_explains w v0 progs log s i :
  explains w v0 progs log s -> exists l, (length l <= 1)%nat /\ explains w v0 progs (log ++ l) (a_step w s i).
Proof.
  intros H. assert (N : exists l, (length l <= 1)%nat /\ explains w v0 progs (log ++ l) s).
  { exists []. rewrite app_nil_r. auto. }
  unfold a_step. destruct (nth_error (a_thr s) i) as [t|] eqn:Ht; [|exact N].
  destruct (t_todo t) as [|o rest] eqn:E; [exact N|].
  destruct (t_tmp t) as [tmp|].
  - unfold cas_atomic. destruct (Z.eqb_spec (a_cell s) tmp) as [<-|Ne].
    + exists [(i, o, spec_ret o (a_cell s))]. split; [auto|]. change (desired w o (a_cell s)) with (spec_new w o (a_cell s)). change (result o (a_cell s)) with (spec_ret o (a_cell s)). now apply explains_call.
    + exists []. split; [auto|]. rewrite app_nil_r. eapply explains_same; eauto.
  - rewrite cas_zero. destruct o.
    2:{ exists [(i, ALoad, spec_ret ALoad (a_cell s))]. split; [auto|].
        change (result ALoad (a_cell s)) with (spec_ret ALoad (a_cell s)).
        change (mkA (a_cell s)) with (mkA (spec_new w ALoad (a_cell s))). now apply explains_call. }
    all: exists []; split; [auto|]; rewrite app_nil_r; eapply explains_same; eauto.
Qed.

Lemma a_run_explains w v0 progs sched : forall log s,
  explains w v0 progs log s -> exists l, (length l <= length sched)%nat /\ explains w v0 progs (log ++ l) (a_run w s sched).
Proof.
  induction sched as [|i sched IH]; intros log s H; cbn [a_run fold_left length].
  - exists []. rewrite app_nil_r. auto.
  - destruct (a_step_explains w v0 progs log s i H) as (l & Hl & H').
    destruct (IH _ _ H') as (l' & Hl' & H''). exists (l ++ l'). rewrite app_assoc, app_length. split; [lia|exact H''].
Qed.

Lemma a_run_app w s l1 l2 : a_run w s (l1 ++ l2) = a_run w (a_run w s l1) l2.
Proof. apply fold_left_app. Qed.

Theorem a_linearizable w v0 progs sched1 sched2 :
  exists log1 log2,
    explains w v0 progs log1 (a_run w (a_init v0 progs) sched1) /\
    explains w v0 progs (log1 ++ log2) (a_run w (a_init v0 progs) (sched1 ++ sched2)).
Proof.
  destruct (a_run_explains w v0 progs sched1 [] _ (explains_init w v0 progs)) as (l1 & _ & H1).
  destruct (a_run_explains w v0 progs sched2 _ _ H1) as (l2 & _ & H2).
  exists l1, l2. rewrite a_run_app. auto.
Qed.

(** ** Consequences *)
Definition finished (s : astate) : Prop := Forall (fun t => t_todo t = []) (a_thr s).

Lemma perm_insert {A} (f g : nat -> list A) i o n : forall a,
  (a <= i < a + n)%nat -> g i = o :: f i -> (forall j, j <> i -> g j = f j) ->
  Permutation (o :: concat (map f (seq a n))) (concat (map g (seq a n))).
Proof.
  induction n as [|n IH]; intros a Hi E1 E2; [lia|]. cbn [seq map concat].
  destruct (Nat.eq_dec a i) as [->|Ne].
  - rewrite E1. cbn [app]. constructor. apply Permutation_app_head.
    rewrite (map_ext_in f g); [auto|]. intros j Hj. apply in_seq in Hj. symmetry. apply E2. lia.
  - rewrite E2 by auto. rewrite <- IH; [|lia|auto|auto]. apply Permutation_middle.
Qed.

Lemma log_perm log n :
  Forall (fun e : entry => (fst (fst e) < n)%nat) log ->
  Permutation (map (fun e => (snd (fst e), snd e)) log) (concat (map (fun i => calls_of i log) (seq 0 n))).
Proof.
  induction 1 as [|[[i o] r] log Hi _ IH]; cbn [map fst snd].
  - induction (seq 0 n); cbn; auto.
  - rewrite IH. apply perm_insert with (i := i).
    + cbn in Hi. lia.
    + unfold calls_of at 1. cbn [filter fst snd]. now rewrite Nat.eqb_refl.
    + intros j Hj. unfold calls_of at 1. cbn [filter fst snd].
      replace (Nat.eqb i j) with false by (symmetry; apply Nat.eqb_neq; auto). reflexivity.
Qed.

Lemma map_concat' {A B} (f : A -> B) l : map f (concat l) = concat (map (map f) l).
Proof. apply concat_map. Qed.

Lemma nth_error_ext {B} (x y : list B) : (forall i, nth_error x i = nth_error y i) -> x = y.
Proof.
  revert y. induction x as [|a x IH]; intros [|b y] H; try reflexivity.
  - specialize (H 0%nat). discriminate.
  - specialize (H 0%nat). discriminate.
  - pose proof (H 0%nat) as H0. cbn in H0. injection H0 as ->. f_equal. apply IH. intros i. exact (H (S i)).
Qed.

Lemma concat_nth {A} (f : nat -> list A) (l : list (list A)) :
  (forall i x, nth_error l i = Some x -> f i = x) -> map f (seq 0 (length l)) = l.
Proof.
  intros H. apply nth_error_ext. intros i. rewrite nth_error_map.
  destruct (Nat.lt_ge_cases i (length l)) as [Hi|Hi].
  - destruct (nth_error l i) as [x|] eqn:E; [|apply nth_error_None in E; lia].
    rewrite (nth_error_nth' _ 0%nat) by (rewrite seq_length; auto). cbn. rewrite seq_nth by auto. cbn. now rewrite (H _ _ E).
  - rewrite (proj2 (nth_error_None _ _)) by (rewrite seq_length; auto). cbn. symmetry. now apply nth_error_None.
Qed.

(** All calls of finished threads, and the results of all threads. *)
Lemma explains_ops w v0 progs log s :
  explains w v0 progs log s -> finished s -> Permutation (map (fun e => snd (fst e)) log) (concat progs).
Proof.
  intros (L & Len & B & H) F.
  assert (E0 : map (fun e : entry => snd (fst e)) log = map fst (map (fun e : entry => (snd (fst e), snd e)) log)) by (now rewrite map_map).
  change (Permutation (map (fun e : entry => snd (fst e)) log) (concat progs)). rewrite E0.
  rewrite (log_perm log (length progs) B), map_concat', map_map.
  rewrite concat_nth; [reflexivity|]. intros i p Hp.
  destruct (nth_error (a_thr s) i) as [t|] eqn:Ht.
  2:{ apply nth_error_None in Ht. apply nth_error_lt in Hp. lia. }
  destruct (H i p t Hp Ht) as [E _]. unfold finished in F. rewrite Forall_forall in F.
  rewrite (F t (nth_error_In _ _ Ht)), app_nil_r in E. auto.
Qed.

Lemma explains_results w v0 progs log s :
  explains w v0 progs log s -> Permutation (map snd log) (concat (map t_res (a_thr s))).
Proof.
  intros (L & Len & B & H).
  assert (E0 : map snd log = map snd (map (fun e : entry => (snd (fst e), snd e)) log)) by (now rewrite map_map).
  rewrite E0.
  rewrite (log_perm log (length progs) B), map_concat', map_map.
  replace (length progs) with (length (map t_res (a_thr s))) by (now rewrite map_length).
  rewrite concat_nth; [reflexivity|]. intros i r Hr.
  rewrite nth_error_map in Hr. destruct (nth_error (a_thr s) i) as [t|] eqn:Ht; [|discriminate].
  cbn in Hr. injection Hr as <-.
  destruct (nth_error progs i) as [p|] eqn:Hp.
  2:{ apply nth_error_None in Hp. apply nth_error_lt in Ht. lia. }
  destruct (H i p t Hp Ht) as [_ E]. auto.
Qed.

Definition add_of (o : aop) : Z := match o with AAdd d => d | _ => 0 end.
Definition is_add (o : aop) : Prop := exists d, o = AAdd d.
Definition zsum (l : list Z) : Z := fold_right Z.add 0 l.

Lemma zsum_perm l l' : Permutation l l' -> zsum l = zsum l'.
Proof. induction 1; cbn [zsum fold_right] in *; unfold zsum in *; cbn [fold_right]; lia. Qed.

Lemma legal_sum w v log v' :
  0 < 2 ^ w -> 0 <= v < 2 ^ w -> legal w v log v' -> Forall (fun e => is_add (snd (fst e))) log ->
  v' = (v + zsum (map (fun e => add_of (snd (fst e))) log)) mod 2 ^ w.
Proof.
  intros W Hv L. induction L as [v|v i o log v' L IH]; intros F.
  - cbn. rewrite Z.add_0_r. now rewrite Z.mod_small.
  - inversion F as [|e l (d & Ed) F']; subst. cbn [fst snd] in Ed. subst o. cbn [map fst snd add_of zsum fold_right spec_new] in *.
    rewrite IH; [|apply Z.mod_pos_bound; auto|auto]. rewrite Zplus_mod_idemp_l. f_equal. unfold zsum. lia.
Qed.

Theorem a_adds_sum w v0 progs sched :
  0 < w -> 0 <= v0 < 2 ^ w -> Forall (Forall is_add) progs ->
  finished (a_run w (a_init v0 progs) sched) ->
  a_cell (a_run w (a_init v0 progs) sched) = (v0 + zsum (map add_of (concat progs))) mod 2 ^ w.
Proof.
  intros W Hv A F.
  destruct (a_run_explains w v0 progs sched [] _ (explains_init w v0 progs)) as (l & _ & H). cbn [app] in H.
  pose proof (explains_ops _ _ _ _ _ H F) as P.
  assert (A' : Forall is_add (concat progs)) by (clear - A; induction A; cbn; [constructor|apply Forall_app; auto]).
  destruct H as (L & _).
  rewrite (legal_sum w v0 l _); [| |exact Hv|exact L|].
  - f_equal. f_equal. apply zsum_perm.
    assert (E0 : map (fun e : entry => add_of (snd (fst e))) l = map add_of (map (fun e => snd (fst e)) l)) by (now rewrite map_map).
    change (Permutation (map (fun e : entry => add_of (snd (fst e))) l) (map add_of (concat progs))). rewrite E0. now apply Permutation_map.
  - apply Z.pow_pos_nonneg; lia.
  - apply (Permutation_Forall (Permutation_sym P)) in A'. clear - A'. rewrite Forall_map in A'. exact A'.
Qed.

(** Tickets. *)
Lemma legal_tickets w v log v' :
  0 <= v -> v + Z.of_nat (length log) <= 2 ^ w -> legal w v log v' -> Forall (fun e => snd (fst e) = AAdd 1) log ->
  map snd log = map (fun k => Some (v + Z.of_nat k)) (seq 0 (length log)).
Proof.
  intros Hv Hn L. induction L as [v|v i o log v' L IH]; intros F; [reflexivity|].
  inversion F as [|e l E F']; subst. cbn [fst snd] in E. subst o.
  cbn [map snd length seq spec_ret] in *. f_equal.
  - f_equal. lia.
  - rewrite <- seq_shift, map_map. destruct log as [|e0 log]; [reflexivity|]. cbn [length] in *.
    assert (Ev : spec_new w (AAdd 1) v = v + 1) by (cbn [spec_new]; apply Z.mod_small; lia). rewrite Ev in IH.
    rewrite IH; [|lia|lia|auto]. apply map_ext. intros k. f_equal. lia.
Qed.

Theorem a_tickets w v0 progs sched :
  0 <= v0 -> v0 + Z.of_nat (length (concat progs)) <= 2 ^ w -> Forall (Forall (fun o => o = AAdd 1)) progs ->
  let rs := concat (map t_res (a_thr (a_run w (a_init v0 progs) sched))) in
  Permutation rs (map (fun k => Some (v0 + Z.of_nat k)) (seq 0 (length rs))).
Proof.
  intros Hv Hn A rs.
  destruct (a_run_explains w v0 progs sched [] _ (explains_init w v0 progs)) as (l & _ & H). cbn [app] in H.
  pose proof (explains_results _ _ _ _ _ H) as P. fold rs in P.
  assert (Hin : forall i o r, In (o, r) (calls_of i l) -> (i < length progs)%nat -> o = AAdd 1).
  { intros i o r Hi Li. destruct H as (_ & Len & B & K).
    destruct (nth_error progs i) as [p|] eqn:Hp; [|apply nth_error_None in Hp; lia].
    destruct (nth_error (a_thr (a_run w (a_init v0 progs) sched)) i) as [t|] eqn:Ht; [|apply nth_error_None in Ht; lia].
    destruct (K i p t Hp Ht) as [E _]. rewrite Forall_forall in A. specialize (A p (nth_error_In _ _ Hp)).
    rewrite Forall_forall in A. apply A. rewrite E. apply in_or_app. left. apply in_map_iff. exists (o, r). auto. }
  assert (Ones : Forall (fun e : entry => snd (fst e) = AAdd 1) l).
  { apply Forall_forall. intros [[i o] r] Hi. cbn [fst snd]. apply Hin with (i := i) (r := r).
    - unfold calls_of. apply in_map_iff. exists (i, o, r). split; [auto|]. apply filter_In. cbn. rewrite Nat.eqb_refl. auto.
    - destruct H as (_ & _ & B & _). rewrite Forall_forall in B. apply (B _ Hi). }
  assert (Ll : (length l <= length (concat progs))%nat).
  { destruct H as (_ & Len & B & K).
    rewrite <- (map_length (fun e : entry => (snd (fst e), snd e)) l), (Permutation_length (log_perm l _ B)).
    rewrite <- (map_length fst), map_concat', map_map.
    assert (G : forall n, (n <= length progs)%nat ->
       (length (concat (map (fun i => map fst (calls_of i l)) (seq 0 n))) <= length (concat (firstn n progs)))%nat).
    { induction n as [|n IHn]; intros Hn'; [cbn; lia|].
      rewrite seq_S, map_app, concat_app, app_length. cbn [map concat plus]. rewrite app_nil_r.
      destruct (nth_error progs n) as [p|] eqn:Hp; [|apply nth_error_None in Hp; lia].
      destruct (nth_error (a_thr (a_run w (a_init v0 progs) sched)) n) as [t|] eqn:Ht; [|apply nth_error_None in Ht; lia].
      destruct (K n p t Hp Ht) as [E _].
      assert (Ef : firstn (S n) progs = firstn n progs ++ [p]).
      { clear - Hp. revert n Hp. induction progs as [|q progs IH]; intros [|n] Hp; cbn in *; try discriminate; [injection Hp as ->; auto|].
        f_equal. now apply IH. }
      rewrite Ef, concat_app, app_length. cbn [concat]. rewrite app_nil_r, E, app_length. specialize (IHn ltac:(lia)). lia. }
    specialize (G (length progs) (Nat.le_refl _)). rewrite firstn_all in G. exact G. }
  destruct H as (L & _).
  assert (Lr : length rs = length l) by (apply Permutation_length in P; rewrite <- P; apply map_length).
  rewrite Lr. rewrite <- P. rewrite (legal_tickets w v0 l _ Hv ltac:(lia) L Ones). reflexivity.
Qed.

(** ** Every call finishes *)
Definition total_res (s : astate) : nat := list_sum (map (fun t => length (t_res t)) (a_thr s)).

Lemma list_sum_upd {A} (f : A -> nat) l i x y :
  nth_error l i = Some x -> (list_sum (map f (upd l i y)) + f x = list_sum (map f l) + f y)%nat.
Proof.
  unfold list_sum. revert i. induction l as [|a l IH]; intros [|i] H; cbn [map upd fold_right nth_error] in *; try discriminate.
  - injection H as ->. lia.
  - specialize (IH _ H). lia.
Qed.

(** Bookkeeping of the steps [k] taken by thread [i]. *)
Definition steps_ok (i k : nat) (s : astate) : Prop :=
  forall t, nth_error (a_thr s) i = Some t -> t_todo t <> [] ->
  match t_tmp t with
  | None => (k <= total_res s + length (t_res t))%nat
  | Some tmp => (k <= total_res s + length (t_res t) + 1)%nat /\
                (tmp <> a_cell s -> (k <= total_res s + length (t_res t))%nat)
  end.

(** A step of any thread changes the cell only if it finishes a call. *)
Lemma a_step_cases w s j :
  a_step w s j = s \/
  exists t o rest, nth_error (a_thr s) j = Some t /\ t_todo t = o :: rest /\
   ((a_step w s j = mkA (a_cell s) (upd (a_thr s) j (mkT (o :: rest) (Some (a_cell s)) (t_res t))) /\
     (t_tmp t <> Some (a_cell s))) \/
    exists c r, a_step w s j = mkA c (upd (a_thr s) j (mkT rest None (t_res t ++ [r])))).
Proof.
  unfold a_step. destruct (nth_error (a_thr s) j) as [t|] eqn:Ht; [|auto].
  destruct (t_todo t) as [|o rest] eqn:E; [auto|]. right. exists t, o, rest. split; [auto|]. split; [auto|].
  destruct (t_tmp t) as [tmp|].
  - unfold cas_atomic. destruct (Z.eqb_spec (a_cell s) tmp) as [Eq|Ne].
    + right. eauto.
    + left. split; [auto|congruence].
  - rewrite cas_zero. destruct o; try (left; split; [reflexivity|discriminate]). right. eauto.
Qed.

Lemma steps_ok_step w s i j k :
  steps_ok i k s -> steps_ok i (if Nat.eqb j i then S k else k) (a_step w s j).
Proof.
  intros H t' Ht' Nz.
  destruct (a_step_cases w s j) as [E|(t & o & rest & Ht & Et & [[E Tmp]|(c & r & E)])].
  - (* nothing to do: thread j has finished or does not exist *)
    rewrite E in *. destruct (Nat.eqb_spec j i) as [->|Ne]; [|exact (H t' Ht' Nz)].
    exfalso. assert (B : a_step w s i <> s); [|auto]. clear - Ht' Nz.
    unfold a_step. rewrite Ht'. destruct (t_todo t') as [|o rest] eqn:Et; [congruence|].
    assert (G : forall c u, u <> t' -> mkA c (upd (a_thr s) i u) <> s).
    { intros c u Nu Eq. apply Nu. apply (f_equal a_thr) in Eq. cbn in Eq.
      assert (Some u = Some t'); [|congruence]. rewrite <- Ht', <- Eq at 1. symmetry. apply nth_error_upd_eq.
      eapply nth_error_lt; eauto. }
    assert (R : forall u x, u = mkT rest None (t_res t' ++ [x]) -> u <> t').
    { intros u x -> Eq. apply (f_equal (fun t => length (t_res t))) in Eq. cbn in Eq. rewrite app_length in Eq. cbn in Eq. lia. }
    destruct (t_tmp t') as [tmp|] eqn:Em.
    + unfold cas_atomic. destruct (Z.eqb_spec (a_cell s) tmp); apply G; [eapply R; eauto|].
      intros Eq. apply (f_equal t_tmp) in Eq. cbn in Eq. congruence.
    + rewrite cas_zero. destruct o; apply G; try (eapply R; eauto; fail); intros Eq; apply (f_equal t_tmp) in Eq; cbn in Eq; congruence.
  - (* a failed exchange, or the load before the loop *)
    rewrite E in *. cbn [a_thr a_cell] in *.
    assert (T : total_res (mkA (a_cell s) (upd (a_thr s) j (mkT (o :: rest) (Some (a_cell s)) (t_res t)))) = total_res s).
    { unfold total_res. cbn [a_thr].
      pose proof (list_sum_upd (fun t => length (t_res t)) (a_thr s) j t (mkT (o :: rest) (Some (a_cell s)) (t_res t)) Ht) as Q.
      cbn [t_res] in Q. lia. }
    rewrite T. destruct (Nat.eqb_spec j i) as [->|Ne].
    + rewrite nth_error_upd_eq in Ht' by (eapply nth_error_lt; eauto). injection Ht' as <-. cbn [t_tmp t_res].
      specialize (H t Ht ltac:(congruence)). destruct (t_tmp t) as [tmp|].
      * destruct H as [_ H]. specialize (H ltac:(congruence)). split; [lia|congruence].
      * split; [lia|congruence].
    + rewrite nth_error_upd_ne in Ht' by auto. specialize (H t' Ht' Nz). exact H.
  - (* a call finishes *)
    rewrite E in *. cbn [a_thr a_cell] in *.
    assert (T : total_res (mkA c (upd (a_thr s) j (mkT rest None (t_res t ++ [r])))) = S (total_res s)).
    { unfold total_res. cbn [a_thr].
      pose proof (list_sum_upd (fun t => length (t_res t)) (a_thr s) j t (mkT rest None (t_res t ++ [r])) Ht) as Q.
      cbn [t_res] in Q. rewrite app_length in Q. cbn [length] in Q. lia. }
    rewrite T. destruct (Nat.eqb_spec j i) as [->|Ne].
    + rewrite nth_error_upd_eq in Ht' by (eapply nth_error_lt; eauto). injection Ht' as <-. cbn [t_tmp t_res].
      rewrite app_length. cbn [length]. specialize (H t Ht ltac:(congruence)). destruct (t_tmp t); lia.
    + rewrite nth_error_upd_ne in Ht' by auto. specialize (H t' Ht' Nz). destruct (t_tmp t'); [|lia].
      destruct H. split; lia.
Qed.

Lemma steps_ok_run w i sched : forall k s,
  steps_ok i k s -> steps_ok i (k + count_occ Nat.eq_dec sched i) (a_run w s sched).
Proof.
  induction sched as [|j sched IH]; intros k s H; cbn [a_run fold_left count_occ].
  - now rewrite Nat.add_0_r.
  - apply (steps_ok_step w s i j k) in H. apply IH in H. unfold a_run in H.
    destruct (Nat.eq_dec j i) as [->|Ne].
    + rewrite Nat.eqb_refl in H. replace (k + S (count_occ Nat.eq_dec sched i))%nat with (S k + count_occ Nat.eq_dec sched i)%nat by lia. exact H.
    + replace (Nat.eqb j i) with false in H by (symmetry; apply Nat.eqb_neq; auto). exact H.
Qed.

Lemma explains_total w v0 progs log s :
  explains w v0 progs log s ->
  (total_res s + list_sum (map (fun t => length (t_todo t)) (a_thr s)) = length (concat progs))%nat.
Proof.
  intros (_ & Len & _ & H). unfold total_res.
  assert (G : Forall2 (fun p t => length p = length (t_res t) + length (t_todo t))%nat progs (a_thr s)).
  { clear - Len H. assert (G : forall i p t, nth_error progs i = Some p -> nth_error (a_thr s) i = Some t ->
        length p = (length (t_res t) + length (t_todo t))%nat).
    { intros i p t Hp Ht. destruct (H i p t Hp Ht) as [E1 E2]. rewrite E1, E2, app_length, !map_length. auto. }
    clear H. revert Len G. generalize (a_thr s). intros thr. revert thr.
    induction progs as [|p ps IH]; intros [|t thr] Len G; cbn in Len; try discriminate; constructor.
    - apply (G 0%nat p t); reflexivity.
    - apply IH; [lia|]. intros i. apply (G (S i)). }
  unfold list_sum. clear Len H. induction G as [|p t ps thr E _ IH]; cbn [concat map fold_right]; [reflexivity|].
  rewrite app_length. lia.
Qed.

Lemma list_sum_ge {A} (f : A -> nat) l i x : nth_error l i = Some x -> (f x <= list_sum (map f l))%nat.
Proof.
  unfold list_sum. revert i. induction l as [|a l IH]; intros [|i] H; cbn [map fold_right nth_error] in *; try discriminate; [injection H as ->; lia|].
  specialize (IH _ H). lia.
Qed.

Theorem a_bounded w v0 progs sched i p t :
  nth_error progs i = Some p ->
  nth_error (a_thr (a_run w (a_init v0 progs) sched)) i = Some t ->
  (length (concat progs) + length p <= count_occ Nat.eq_dec sched i)%nat ->
  t_todo t = [].
Proof.
  intros Hp Ht Hc. destruct (t_todo t) as [|o rest] eqn:E; [reflexivity|exfalso].
  assert (S0 : steps_ok i 0 (a_init v0 progs)).
  { intros u Hu _. destruct (t_tmp u); lia. }
  pose proof (steps_ok_run w i sched _ _ S0 t Ht ltac:(congruence)) as Q. cbn [plus] in Q.
  destruct (a_run_explains w v0 progs sched [] _ (explains_init w v0 progs)) as (l & _ & H). cbn [app] in H.
  pose proof (explains_total _ _ _ _ _ H) as T. destruct H as (_ & _ & _ & H). destruct (H i p t Hp Ht) as [E1 E2].
  apply (f_equal (@length _)) in E1, E2. rewrite app_length, map_length in E1. rewrite map_length in E2. rewrite E in E1. cbn [length] in E1.
  pose proof (list_sum_ge (fun t => length (t_todo t)) _ _ _ Ht) as G. cbn beta in G. rewrite E in G. cbn [length] in G.
  destruct (t_tmp t); lia.
Qed.

(** ** One builtin per call *)
Lemma b_run_explains w app v0 progs sched : 
  (forall o v, app o v = (spec_new w o v, spec_ret o v)) ->
  forall log s, explains w v0 progs log s -> exists l, explains w v0 progs (log ++ l) (b_run app s sched).
Proof.
  intros A. induction sched as [|i sched IH]; intros log s H; cbn [b_run fold_left].
  - exists []. now rewrite app_nil_r.
  - assert (N : exists l, explains w v0 progs (log ++ l) (b_step app s i)).
    { unfold b_step. destruct (nth_error (a_thr s) i) as [t|] eqn:Ht; [|exists []; now rewrite app_nil_r].
      destruct (t_todo t) as [|o rest] eqn:E; [exists []; now rewrite app_nil_r|].
      rewrite A. exists [(i, o, spec_ret o (a_cell s))]. now apply explains_call. }
    destruct N as (l & Hl). destruct (IH _ _ Hl) as (l' & Hl'). exists (l ++ l'). now rewrite app_assoc.
Qed.

Lemma posix_spec w o v : posix_apply w o v = (spec_new w o v, spec_ret o v).
Proof.
  destruct o; cbn [posix_apply spec_new spec_ret]; try reflexivity. unfold wrapw. f_equal.
  rewrite Zplus_mod_idemp_r. f_equal. 
Qed.

Lemma cuda_spec w o v : cuda_apply w o v = (spec_new w o v, spec_ret o v).
Proof. now destruct o. Qed.

Lemma host_spec w o v : host_atomic_apply w o v = (spec_new w o v, spec_ret o v).
Proof. now destruct o. Qed.

Theorem b_linearizable w app v0 progs sched1 sched2 :
  app = posix_apply w \/ app = cuda_apply w ->
  exists log1 log2,
    explains w v0 progs log1 (b_run app (a_init v0 progs) sched1) /\
    explains w v0 progs (log1 ++ log2) (b_run app (a_init v0 progs) (sched1 ++ sched2)).
Proof.
  intros Happ. assert (A : forall o v, app o v = (spec_new w o v, spec_ret o v)).
  { destruct Happ; subst; intros; [apply posix_spec|apply cuda_spec]. }
  destruct (b_run_explains w app v0 progs sched1 A [] _ (explains_init w v0 progs)) as (l1 & H1).
  destruct (b_run_explains w app v0 progs sched2 A _ _ H1) as (l2 & H2).
  exists l1, l2. unfold b_run in *. rewrite fold_left_app. auto.
Qed.

(** What compare_exchange_strong has to do. *)
Definition cas_right (cell expected desired : Z) (out : bool * Z * Z) : Prop :=
  let '(ok, expected', cell') := out in
  (ok = true <-> cell = expected) /\
  (cell = expected -> cell' = desired /\ expected' = expected) /\
  (cell <> expected -> cell' = cell /\ expected' = cell).

Lemma cas_atomic_right c e d : cas_right c e d (cas_atomic c e d).
Proof. unfold cas_atomic, cas_right. destruct (Z.eqb_spec c e); intuition congruence. Qed.

Theorem ref_cas_right c e d o :
  (exists out, posix_cas3 c e d o = Ret out /\ cas_right c e d out) /\
  (exists out, cuda_cas3 c e d o = Ret out /\ cas_right c e d out).
Proof.
  unfold posix_cas3, posix_cas4, cuda_cas3, cuda_cas4, assert, atomicCAS.
  assert (F : failure_order_ok (failure_order o) = true) by (now destruct o). rewrite F. split.
  - eexists. split; [reflexivity|apply cas_atomic_right].
  - eexists. split; [reflexivity|]. unfold cas_right. destruct (Z.eqb_spec c e); intuition congruence.
Qed.

Theorem ref_cas_failure c e d s f :
  (f = Release \/ f = AcqRel -> posix_cas4 c e d s f = UB /\ cuda_cas4 c e d s f = UB) /\
  (f <> Release -> f <> AcqRel ->
   let right := if c =? e then (true, e, d) else (false, c, c) in
   posix_cas4 c e d s f = Ret right /\ cuda_cas4 c e d s f = Ret right).
Proof.
  unfold posix_cas4, cuda_cas4, assert, atomicCAS, cas_atomic. split.
  - intros [-> | ->]; split; reflexivity.
  - intros H1 H2. assert (F : failure_order_ok f = true) by (destruct f; congruence || reflexivity). rewrite F.
    destruct (c =? e); split; reflexivity.
Qed.

Theorem atomic_cas_right p c e d : p <> PCudaHip -> cas_right c e d (atomic_cas p c e d).
Proof. destruct p; intros H; [congruence|apply cas_atomic_right|]. unfold atomic_cas, cas_right. destruct (Z.eqb_spec c e); intuition congruence. Qed.

(** ** The real compare_exchange of the dummy reference: alone it is right *)
Definition d_explains (w v0 : Z) (prog : list aop) (log : list entry) (s : dstate) : Prop :=
  exists t, ds_thr s = [t] /\ legal w v0 log (ds_cell s) /\
    prog = map (fun e => snd (fst e)) log ++ d_todo t /\ d_res t = map snd log /\
    match d_phase t with
    | DStart => True
    | DLoadWrite => ds_cell s = 0
    | DLoop tmp | DWrite tmp => ds_cell s = tmp /\ hd_error (d_todo t) <> Some ALoad
    end.

(** Steps still to be made by a lone thread. *)
Definition d_left (s : dstate) : nat :=
  match ds_thr s with
  | [t] => 4 * length (d_todo t) - match d_phase t with DStart => 0 | DLoadWrite => 1 | DLoop _ => 2 | DWrite _ => 3 end
  | _ => 0
  end.

Lemma dm_step_alone w v0 prog log s :
  d_explains w v0 prog log s -> exists l, d_explains w v0 prog (log ++ l) (dm_step w s 0) /\
    (d_left (dm_step w s 0) <= d_left s - 1)%nat.
Proof.
  destruct s as [c thr]. intros ([todo ph res] & Et & L & Ep & Er & Hph). cbn [ds_thr ds_cell d_todo d_res d_phase] in *. subst thr.
  unfold dm_step. cbn [ds_thr ds_cell nth_error d_todo d_phase d_res].
  destruct todo as [|o rest].
  { exists []. rewrite app_nil_r. split; [eexists; cbn; eauto 6|cbn; lia]. }
  assert (LC : forall c', exists l, d_explains w v0 prog (log ++ l) (mkDS c (upd [mkD (o :: rest) ph res] 0 (d_loaded (mkD (o :: rest) ph res) o rest c)))
    /\ (d_left (mkDS c' (upd [mkD (o :: rest) ph res] 0 (d_loaded (mkD (o :: rest) ph res) o rest c))) <= 4 * length rest + 2)%nat).
  { intros c'. destruct o.
    2:{ exists [(0%nat, ALoad, spec_ret ALoad c)]. split; [|cbn [upd d_loaded d_left ds_thr d_todo d_phase]; lia].
        exists (mkD rest DStart (res ++ [Some c])). split; [reflexivity|]. split; [change c with (spec_new w ALoad c) at 2; now apply legal_snoc|].
        rewrite !map_app. cbn [map fst snd d_todo d_res d_phase spec_ret]. rewrite <- app_assoc, <- Er. auto. }
    all: exists []; rewrite app_nil_r; split; [|cbn [upd d_loaded d_left ds_thr d_todo d_phase length]; lia];
         eexists; split; [reflexivity|]; cbn [d_loaded d_todo d_res d_phase ds_cell hd_error]; repeat split; auto; discriminate. }
  destruct ph as [| |tmp|tmp]; cbn [d_left ds_thr d_todo d_phase length].
  - destruct (Z.eqb_spec c 0) as [->|Ne].
    + exists []. rewrite app_nil_r. split; [|cbn [upd d_left ds_thr d_todo d_phase length]; lia].
      exists (mkD (o :: rest) DLoadWrite res). cbn. auto 6.
    + destruct (LC c) as (l & H1 & H2). exists l. split; [exact H1|lia].
  - cbn in Hph. subst c. destruct (LC 0) as (l & H1 & H2). exists l. split; [exact H1|lia].
  - destruct Hph as [<- Hph]. rewrite Z.eqb_refl. exists []. rewrite app_nil_r. split; [|cbn [upd d_left ds_thr d_todo d_phase length]; lia].
    exists (mkD (o :: rest) (DWrite c) res). cbn. auto 6.
  - destruct Hph as [<- Hph]. exists [(0%nat, o, spec_ret o c)]. change (desired w o c) with (spec_new w o c). change (result o c) with (spec_ret o c).
    split; [|cbn [upd d_left ds_thr d_todo d_phase length]; lia].
    exists (mkD rest DStart (res ++ [spec_ret o c])). cbn [upd ds_thr ds_cell d_todo d_res d_phase].
    split; [reflexivity|]. split; [now apply legal_snoc|].
    rewrite !map_app. cbn [map fst snd]. rewrite <- app_assoc, <- Er. auto.
Qed.

Theorem dummy_alone w v0 prog n :
  exists log t, ds_thr (dm_run w (dm_init v0 [prog]) (repeat 0%nat n)) = [t] /\
    legal w v0 log (ds_cell (dm_run w (dm_init v0 [prog]) (repeat 0%nat n))) /\
    prog = map (fun e => snd (fst e)) log ++ d_todo t /\ d_res t = map snd log /\
    ((4 * length prog <= n)%nat -> d_todo t = []).
Proof.
  assert (G : forall n log s, d_explains w v0 prog log s -> exists l, d_explains w v0 prog (log ++ l) (dm_run w s (repeat 0%nat n)) /\
      (d_left (dm_run w s (repeat 0%nat n)) <= d_left s - n)%nat).
  { clear n. induction n as [|n IH]; intros log s H; cbn [repeat dm_run fold_left].
    - exists []. rewrite app_nil_r. split; [auto|lia].
    - destruct (dm_step_alone _ _ _ _ _ H) as (l & H1 & H2). destruct (IH _ _ H1) as (l' & H3 & H4).
      exists (l ++ l'). rewrite app_assoc. split; [exact H3|]. unfold dm_run in H4. lia. }
  destruct (G n [] (dm_init v0 [prog])) as (l & (t & E & L & Ep & Er & Hph) & Lf).
  { exists (mkD prog DStart []). cbn. split; [auto|]. split; [constructor|auto]. }
  cbn [app] in *. exists l, t. repeat (split; [assumption|]).
  intros Hn. unfold d_left in Lf. rewrite E in Lf. cbn [dm_init map ds_thr d_todo d_phase] in Lf.
  destruct (d_todo t); [auto|]. cbn [length] in Lf. destruct (d_phase t); lia.
Qed.

Lemma dummy_refuted :
  dm_run 32 (dm_init 0 [[AAdd 1]; [AAdd 1]]) [0; 0; 1; 1; 0; 1; 0; 1]%nat =
    mkDS 1 [mkD [] DStart [Some 0]; mkD [] DStart [Some 0]] /\
  dm_run 32 (dm_init 0 [[ALoad]; [AStore 5]; [ALoad]]) [0; 1; 1; 1; 1; 0; 2; 2]%nat =
    mkDS 0 [mkD [] DStart [Some 0]; mkD [] DStart [None]; mkD [] DStart [Some 0]] /\
  ~ (forall w v0 progs sched,
       Forall (fun t => d_todo t = []) (ds_thr (dm_run w (dm_init v0 progs) sched)) ->
       exists log, legal w v0 log (ds_cell (dm_run w (dm_init v0 progs) sched)) /\
         Permutation (map (fun e => snd (fst e)) log) (concat progs)).
Proof.
  split; [reflexivity|]. split; [reflexivity|]. intros H.
  destruct (H 32 0 [[AAdd 1]; [AAdd 1]] [0; 0; 1; 1; 0; 1; 0; 1]%nat) as (log & L & P).
  { vm_compute. repeat constructor. }
  change (ds_cell (dm_run 32 (dm_init 0 [[AAdd 1]; [AAdd 1]]) [0; 0; 1; 1; 0; 1; 0; 1]%nat)) with 1 in L.
  assert (A : Forall is_add (map (fun e : entry => snd (fst e)) log)).
  { apply (Permutation_Forall (Permutation_sym P)). cbn. repeat (first [apply Forall_nil|apply Forall_cons|(eexists; reflexivity)]). }
  rewrite Forall_map in A.
  pose proof (legal_sum 32 0 log 1 ltac:(lia) ltac:(lia) L A) as S.
  assert (E0 : map (fun e : entry => add_of (snd (fst e))) log = map add_of (map (fun e : entry => snd (fst e)) log)) by (now rewrite map_map).
  rewrite E0, (zsum_perm _ _ (Permutation_map add_of P)) in S. vm_compute in S. discriminate.
Qed.

Lemma cuda_cas_refuted :
  ~ (forall p cell expected desired, cas_right cell expected desired (atomic_cas p cell expected desired)) /\
  atomic_cas PCudaHip 0 0 5 = (false, 0, 5) /\
  atomic_cas PCudaHip 3 4 5 = (true, 4, 3).
Proof.
  split; [|split; reflexivity]. intros H. destruct (H PCudaHip 0 0 5) as [[_ F] _]. discriminate (F eq_refl).
Qed.
