(** Proofs about [SyncGraph]. *)
From Verif Require Import Base SyncGraph.
From Coq Require Import List Bool Arith Lia Wf_nat.
Import ListNotations.
Local Open Scope nat_scope.

Lemma upd_same : forall A (l : list A) i x y, nth_error l i = Some y -> nth_error (upd l i x) i = Some x.
Proof. intros A l. induction l as [|z l IH]; intros [|i] x y H; cbn [upd nth_error] in *; try discriminate; eauto. Qed.
Lemma upd_other : forall A (l : list A) i j x, i <> j -> nth_error (upd l i x) j = nth_error l j.
Proof. intros A l. induction l as [|z l IH]; intros [|i] [|j] x H; cbn [upd nth_error]; auto; congruence. Qed.
Lemma existsb_eq : forall n l, existsb (Nat.eqb n) l = true <-> In n l.
Proof.
  intros n l. rewrite existsb_exists. split; [intros (x & I & E); apply Nat.eqb_eq in E; congruence|intros I; exists n; split; auto; apply Nat.eqb_refl].
Qed.

Section P.
  Variable sync : nat -> bool.
  Variable ups : nat -> list nat.
  Variable entries : nat -> list nat.
  Hypothesis acyclic : forall m n, In n (ups m) -> n < m.

  Lemma inside_spec : forall ts n, inside_any ts n = true <-> exists j t, nth_error ts j = Some t /\ In n (t_stack t).
  Proof.
    intros ts n. unfold inside_any. rewrite existsb_exists. split.
    - intros (t & I & E). apply existsb_eq in E. apply In_nth_error in I. destruct I as [j N]. eauto.
    - intros (j & t & N & I). exists t. split; [eapply nth_error_In; eauto|apply existsb_eq; auto].
  Qed.

  Lemma path_lt : forall start l n, path ups start (n :: l) -> forall x, In x l -> n < x.
  Proof.
    intros start l. induction l as [|m l IH]; intros n [A B] x I; [destruct I|]. apply acyclic in A. destruct I as [<-|I]; auto.
    specialize (IH m B x I). lia.
  Qed.
  Lemma path_app : forall start a b, path ups start (a ++ b) -> path ups start b.
  Proof. intros start a. induction a as [|x a IH]; intros b H; cbn [app] in H; auto. destruct H as [_ H]. auto. Qed.

  Record inv (ts : list thread) : Prop := {
    i_path : forall i t, nth_error ts i = Some t -> path ups (entries i) (t_stack t);
    i_wf : forall i t, nth_error ts i = Some t -> wf ups (entries i) (t_stack t) (t_rest t) = true;
    i_mutex : forall s i j t u, sync s = true -> nth_error ts i = Some t -> nth_error ts j = Some u -> In s (t_stack t) -> In s (t_stack u) -> i = j }.

  Lemma step_inv : forall ts i ts', inv ts -> sgstep sync ts i = Some ts' -> inv ts'.
  Proof.
    intros ts i ts' [P W M] S. unfold sgstep in S. destruct (nth_error ts i) as [[st rest]|] eqn:N; [|discriminate].
    pose proof (P i _ N) as Pi. pose proof (W i _ N) as Wi. cbn [t_stack t_rest] in Pi, Wi.
    destruct rest as [|[n|] rest].
    - destruct st; discriminate.
    - assert (S' : (if sync n && inside_any ts n then None else Some (upd ts i (mkThread (n :: st) rest))) = Some ts') by (destruct st; exact S). clear S.
      destruct (sync n && inside_any ts n) eqn:B; [discriminate|]. injection S' as <-.
      assert (Q : match st with [] => In n (entries i) | m :: _ => In n (ups m) end /\ wf ups (entries i) (n :: st) rest = true).
      { cbn [wf] in Wi. destruct st as [|m st]; apply andb_true_iff in Wi; destruct Wi as [A C]; apply existsb_eq in A; auto. }
      destruct Q as [Q1 Q2]. constructor.
      + intros j t Nj. destruct (Nat.eq_dec i j) as [<-|D].
        * rewrite (upd_same _ _ _ _ _ N) in Nj. injection Nj as <-. cbn [t_stack]. split; auto.
        * rewrite upd_other in Nj by auto. eauto.
      + intros j t Nj. destruct (Nat.eq_dec i j) as [<-|D].
        * rewrite (upd_same _ _ _ _ _ N) in Nj. injection Nj as <-. cbn [t_stack t_rest]. auto.
        * rewrite upd_other in Nj by auto. eauto.
      + assert (G : forall s j u, sync s = true -> i <> j -> nth_error ts j = Some u -> In s (n :: st) -> In s (t_stack u) -> False).
        { intros s j u Sy D Nj I I'. destruct I as [<-|I].
          - rewrite Sy in B. cbn [andb] in B. assert (T : inside_any ts n = true) by (apply inside_spec; eauto). congruence.
          - apply D. eapply (M s i j _ u Sy N Nj I I'). }
        intros s j k t u Sy Nj Nk I I'. destruct (Nat.eq_dec i j) as [<-|D]; destruct (Nat.eq_dec i k) as [<-|D']; auto.
        * rewrite (upd_same _ _ _ _ _ N) in Nj. injection Nj as <-. rewrite upd_other in Nk by auto. exfalso. eapply (G s k u Sy D' Nk I I').
        * rewrite (upd_same _ _ _ _ _ N) in Nk. injection Nk as <-. rewrite upd_other in Nj by auto. exfalso. eapply (G s j t Sy D Nj I' I).
        * rewrite upd_other in Nj, Nk by auto. eapply (M s j k t u Sy Nj Nk I I').
    - destruct st as [|n st]; [discriminate|]. injection S as <-. destruct Pi as [Pi1 Pi2]. cbn [wf] in Wi. constructor.
      + intros j t Nj. destruct (Nat.eq_dec i j) as [<-|D].
        * rewrite (upd_same _ _ _ _ _ N) in Nj. injection Nj as <-. cbn [t_stack]. auto.
        * rewrite upd_other in Nj by auto. eauto.
      + intros j t Nj. destruct (Nat.eq_dec i j) as [<-|D].
        * rewrite (upd_same _ _ _ _ _ N) in Nj. injection Nj as <-. cbn [t_stack t_rest]. auto.
        * rewrite upd_other in Nj by auto. eauto.
      + assert (G : forall j t, nth_error (upd ts i (mkThread st rest)) j = Some t -> exists t0, nth_error ts j = Some t0 /\ incl (t_stack t) (t_stack t0)).
        { intros j t Nj. destruct (Nat.eq_dec i j) as [<-|D].
          - rewrite (upd_same _ _ _ _ _ N) in Nj. injection Nj as <-. eexists. split; [exact N|]. cbn [t_stack]. intros x I. right. exact I.
          - rewrite upd_other in Nj by auto. exists t. split; auto. intros x I. exact I. }
        intros s j k t u Sy Nj Nk I I'. destruct (G j t Nj) as (t0 & N0 & L0). destruct (G k u Nk) as (u0 & N1 & L1).
        apply (M s j k t0 u0 Sy N0 N1 (L0 s I) (L1 s I')).
  Qed.
  Lemma run_inv : forall sched ts ts', inv ts -> sgrun sync ts sched = Some ts' -> inv ts'.
  Proof.
    induction sched as [|i sched IH]; intros ts ts' I R; cbn [sgrun] in R; [injection R as <-; auto|].
    destruct (sgstep sync ts i) as [ts1|] eqn:S; [|discriminate]. eapply IH; [eapply step_inv; eauto|exact R].
  Qed.
  Lemma init_nth : forall progs i t, nth_error (sginit progs) i = Some t -> exists l, nth_error progs i = Some l /\ t = mkThread [] l.
  Proof.
    intros progs i t N. unfold sginit in N. rewrite nth_error_map in N. destruct (nth_error progs i) as [l|]; [|discriminate]. injection N as <-. eauto.
  Qed.
  Lemma init_inv : forall progs, sgok ups entries progs -> inv (sginit progs).
  Proof.
    intros progs O. constructor.
    - intros i t N. apply init_nth in N. destruct N as (l & N & ->). exact I.
    - intros i t N. apply init_nth in N. destruct N as (l & N & ->). apply O. exact N.
    - intros s i j t u _ N _ K. apply init_nth in N. destruct N as (l & _ & ->). destruct K.
  Qed.

  (** ** No deadlock *)
  Lemma step_exit : forall ts i n st rest, nth_error ts i = Some (mkThread (n :: st) (Exit :: rest)) -> sgstep sync ts i <> None.
  Proof. intros ts i n st rest N. unfold sgstep. rewrite N. discriminate. Qed.
  Lemma step_enter : forall ts i st n rest, nth_error ts i = Some (mkThread st (Enter n :: rest)) -> sync n && inside_any ts n = false -> sgstep sync ts i <> None.
  Proof. intros ts i st n rest N B. unfold sgstep. rewrite N, B. destruct st; discriminate. Qed.

  Lemma blocked_step : forall ts, inv ts -> forall n, sync n && inside_any ts n = true -> exists j, sgstep sync ts j <> None.
  Proof.
    intros ts V n. induction n as [n IH] using lt_wf_ind. intros B. apply andb_true_iff in B. destruct B as [_ B].
    apply inside_spec in B. destruct B as (h & t & N & I). destruct t as [st rest]. cbn [t_stack] in I.
    pose proof (i_wf _ V h _ N) as W. pose proof (i_path _ V h _ N) as P. cbn [t_stack t_rest] in W, P.
    destruct st as [|top st]; [destruct I|]. destruct rest as [|[k|] rest]; cbn [wf] in W; [discriminate| |].
    - apply andb_true_iff in W. destruct W as [W _]. apply existsb_eq in W. apply acyclic in W.
      destruct (sync k && inside_any ts k) eqn:E; [|exists h; eapply step_enter; eauto]. apply (IH k); auto.
      destruct I as [<-|I]; auto. pose proof (path_lt _ _ _ P n I). lia.
    - exists h. eapply step_exit; eauto.
  Qed.
  Lemma progress : forall ts, inv ts -> forall i t, nth_error ts i = Some t -> t_rest t <> [] -> exists j, sgstep sync ts j <> None.
  Proof.
    intros ts V i [st rest] N R. cbn [t_rest] in R. destruct rest as [|[n|] rest]; [congruence| |].
    - destruct (sync n && inside_any ts n) eqn:E; [eapply blocked_step; eauto|exists i; eapply step_enter; eauto].
    - pose proof (i_wf _ V i _ N) as W. cbn [t_stack t_rest] in W. destruct st as [|n st]; [discriminate|]. exists i. eapply step_exit; eauto.
  Qed.
  Theorem deadlock_thm : forall progs sched ts, sgok ups entries progs -> sgrun sync (sginit progs) sched = Some ts ->
    forall i t, nth_error ts i = Some t -> t_rest t <> [] -> exists j, sgstep sync ts j <> None.
  Proof. intros progs sched ts O R. exact (progress ts (run_inv sched _ ts (init_inv progs O) R)). Qed.

  (** ** Every run ends *)
  Definition todo (ts : list thread) : nat := list_sum (map (fun t => length (t_rest t)) ts).
  Lemma todo_upd : forall ts i t t', nth_error ts i = Some t -> length (t_rest t) = S (length (t_rest t')) -> todo ts = S (todo (upd ts i t')).
  Proof.
    unfold todo. induction ts as [|u ts IH]; intros [|i] t t' N L; cbn [nth_error] in N; try discriminate; cbn [upd map list_sum fold_right].
    - injection N as ->. unfold list_sum. cbn [fold_right]. lia.
    - unfold list_sum in *. cbn [fold_right]. rewrite (IH i t t' N L). lia.
  Qed.
  Lemma step_todo : forall ts i ts', sgstep sync ts i = Some ts' -> todo ts = S (todo ts') /\ length ts' = length ts.
  Proof.
    assert (U : forall (ts : list thread) i x, length (upd ts i x) = length ts).
    { induction ts as [|u ts IH]; intros [|i] x; cbn [upd length]; auto. }
    intros ts i ts' S. unfold sgstep in S. destruct (nth_error ts i) as [[st rest]|] eqn:N; [|discriminate].
    destruct rest as [|[n|] rest].
    - destruct st; discriminate.
    - assert (S' : (if sync n && inside_any ts n then None else Some (upd ts i (mkThread (n :: st) rest))) = Some ts') by (destruct st; exact S).
      destruct (sync n && inside_any ts n); [discriminate|]. injection S' as <-. split; [eapply todo_upd; [exact N|reflexivity]|apply U].
    - destruct st as [|n st]; [discriminate|]. injection S as <-. split; [eapply todo_upd; [exact N|reflexivity]|apply U].
  Qed.
  Lemma run_todo : forall sched ts ts', sgrun sync ts sched = Some ts' -> todo ts = length sched + todo ts' /\ length ts' = length ts.
  Proof.
    induction sched as [|i sched IH]; intros ts ts' R; cbn [sgrun] in R; [injection R as <-; auto|].
    destruct (sgstep sync ts i) as [ts1|] eqn:S; [|discriminate]. apply step_todo in S. apply IH in R. cbn [length]. lia.
  Qed.
  Lemma all_done : forall ts, todo ts = 0 -> Forall (fun t => t_rest t = []) ts.
  Proof.
    unfold todo, list_sum. induction ts as [|t ts IH]; cbn [map fold_right]; intros H; constructor.
    - destruct (t_rest t); auto. cbn [length] in H. lia.
    - apply IH. lia.
  Qed.
  Lemma some_left : forall ts, todo ts <> 0 -> exists i t, nth_error ts i = Some t /\ t_rest t <> [].
  Proof.
    unfold todo, list_sum. induction ts as [|t ts IH]; cbn [map fold_right]; intros H; [lia|].
    destruct (t_rest t) as [|a l] eqn:E.
    - cbn [length] in H. destruct (IH ltac:(lia)) as (i & u & N & R). exists (S i), u. auto.
    - exists 0, t. split; auto. congruence.
  Qed.
  Lemma finish : forall n ts, todo ts = n -> inv ts -> exists sched ts', sgrun sync ts sched = Some ts' /\ todo ts' = 0.
  Proof.
    induction n as [|n IH]; intros ts E V.
    - exists [], ts. auto.
    - destruct (some_left ts ltac:(lia)) as (i & t & N & R). destruct (progress ts V i t N R) as [j S].
      destruct (sgstep sync ts j) as [ts1|] eqn:Sj; [|congruence]. pose proof (step_todo _ _ _ Sj) as [T _].
      destruct (IH ts1 ltac:(lia) (step_inv _ _ _ V Sj)) as (sched & ts' & R' & Z). exists (j :: sched), ts'. cbn [sgrun]. rewrite Sj. auto.
  Qed.
  Lemma done_idle : forall ts, inv ts -> todo ts = 0 -> Forall (fun t => t = mkThread [] []) ts.
  Proof.
    intros ts V Z. apply Forall_forall. intros t I. apply In_nth_error in I. destruct I as [i N]. pose proof (i_wf _ V i t N) as W.
    pose proof (all_done ts Z) as F. rewrite Forall_forall in F. specialize (F t (nth_error_In _ _ N)). destruct t as [st rest]. cbn [t_rest t_stack] in *.
    subst rest. cbn [wf] in W. destruct st; [reflexivity|discriminate].
  Qed.
  Theorem complete_thm : forall progs sched ts, sgok ups entries progs -> sgrun sync (sginit progs) sched = Some ts ->
    length sched <= list_sum (map (@length act) progs) /\
    exists sched' ts', sgrun sync ts sched' = Some ts' /\ length ts' = length progs /\ Forall (fun t => t = mkThread [] []) ts' /\
      length sched + length sched' = list_sum (map (@length act) progs).
  Proof.
    intros progs sched ts O R. pose proof (run_inv _ _ _ (init_inv progs O) R) as V.
    assert (T : todo (sginit progs) = list_sum (map (@length act) progs)).
    { unfold todo, sginit. rewrite map_map. reflexivity. }
    destruct (run_todo _ _ _ R) as [E L]. destruct (finish _ ts eq_refl V) as (sched' & ts' & R' & Z). destruct (run_todo _ _ _ R') as [E' L'].
    split; [lia|]. exists sched', ts'. split; auto. split; [rewrite L', L; unfold sginit; apply map_length|].
    split; [apply done_idle; auto; eapply run_inv; eauto|lia].
  Qed.

  (** ** Mutual exclusion *)
  Section Guard.
    Variables (s m : nat).
    Hypothesis s_sync : sync s = true.
    Hypothesis guarded : forall i l, path ups (entries i) (m :: l) -> s = m \/ In s l.

    Lemma holds : forall ts i t, inv ts -> nth_error ts i = Some t -> In m (t_stack t) -> In s (t_stack t).
    Proof.
      intros ts i t V N I. pose proof (i_path _ V i t N) as P. apply in_split in I. destruct I as (a & b & E). rewrite E in *.
      apply path_app in P. apply in_or_app. right. destruct (guarded i b P) as [->|K]; [left; auto|right; auto].
    Qed.
    Lemma exclusion : forall ts i j t u, inv ts -> nth_error ts i = Some t -> nth_error ts j = Some u -> In m (t_stack t) -> In m (t_stack u) -> i = j.
    Proof. intros ts i j t u V N N' I I'. eapply (i_mutex _ V s i j t u s_sync N N'); eapply holds; eauto. Qed.

    Definition inside_m (ts : list thread) (i : nat) : Prop := exists t, nth_error ts i = Some t /\ In m (t_stack t).
    Definition cur_ok (cur : option nat) (ts : list thread) : Prop := forall i, cur = Some i <-> inside_m ts i.
    Lemma unique : forall ts i j, inv ts -> inside_m ts i -> inside_m ts j -> i = j.
    Proof. intros ts i j V (t & N & I) (u & N' & I'). eapply (exclusion ts i j t u); eauto. Qed.
    Lemma inside_upd : forall ts i x y j, nth_error ts i = Some y -> i <> j -> (inside_m (upd ts i x) j <-> inside_m ts j).
    Proof. intros ts i x y j N D. unfold inside_m. rewrite upd_other by auto. tauto. Qed.
    Lemma inside_self : forall ts i x y, nth_error ts i = Some y -> (inside_m (upd ts i x) i <-> In m (t_stack x)).
    Proof.
      intros ts i x y N. unfold inside_m. rewrite (upd_same _ _ _ _ _ N). split; [intros (t & E & I); injection E as <-; auto|eauto].
    Qed.
    Lemma inside_at : forall ts i y, nth_error ts i = Some y -> (inside_m ts i <-> In m (t_stack y)).
    Proof. intros ts i y N. unfold inside_m. rewrite N. split; [intros (t & E & I); injection E as <-; auto|eauto]. Qed.

    Lemma events_ok : forall sched ts cur, inv ts -> cur_ok cur ts -> one_by_one cur (events sync m ts sched) = true.
    Proof.
      induction sched as [|i sched IH]; intros ts cur V C; cbn [events]; [destruct cur; auto|].
      destruct (sgstep sync ts i) as [ts'|] eqn:S.
      2: destruct cur; reflexivity.
      pose proof (step_inv _ _ _ V S) as V'.
      assert (G : match event_of ts m i with
                  | [] => cur_ok cur ts'
                  | [(j, true)] => j = i /\ cur = None /\ cur_ok (Some i) ts'
                  | [(j, false)] => j = i /\ cur = Some i /\ cur_ok None ts'
                  | _ => False
                  end).
      { unfold event_of. unfold sgstep in S. destruct (nth_error ts i) as [[st rest]|] eqn:N; [|discriminate].
        cbn [t_rest t_stack]. destruct rest as [|[n|] rest].
        - destruct st; discriminate.
        - assert (S' : (if sync n && inside_any ts n then None else Some (upd ts i (mkThread (n :: st) rest))) = Some ts') by (destruct st; exact S). clear S.
          destruct (sync n && inside_any ts n); [discriminate|]. injection S' as S'.
          assert (Ii : inside_m ts' i <-> In m (n :: st)) by (rewrite <- S'; exact (inside_self ts i (mkThread (n :: st) rest) _ N)).
          assert (Io : forall j, i <> j -> (inside_m ts' j <-> inside_m ts j)) by (intros j D; rewrite <- S'; apply (inside_upd ts i _ _ j N D)).
          pose proof (inside_at ts i _ N) as I0. cbn [t_stack] in I0.
          destruct (Nat.eqb_spec n m) as [->|D].
          + assert (X : inside_m ts' i) by (apply Ii; left; auto).
            assert (Y : ~ In m st).
            { intros K. assert (P : path ups (entries i) (m :: st)).
              { apply (i_path _ V' i (mkThread (m :: st) rest)). rewrite <- S'. eapply upd_same; eauto. }
              pose proof (path_lt _ _ _ P m K). lia. }
            split; auto. split.
            * destruct cur as [j|]; auto. exfalso. pose proof (proj1 (C j) eq_refl) as K. destruct (Nat.eq_dec i j) as [<-|D]; [tauto|].
              apply D. apply (unique ts' i j V' X). apply Io; auto.
            * intros j. split; [intros E; injection E as <-; auto|]. intros K. f_equal. apply (unique ts' i j V' X K).
          + intros j. rewrite (C j). destruct (Nat.eq_dec i j) as [<-|D']; [|symmetry; auto]. rewrite I0, Ii. cbn [In]. tauto.
        - destruct st as [|n st]; [discriminate|]. injection S as S'.
          assert (Ii : inside_m ts' i <-> In m st) by (rewrite <- S'; exact (inside_self ts i (mkThread st rest) _ N)).
          assert (Io : forall j, i <> j -> (inside_m ts' j <-> inside_m ts j)) by (intros j D; rewrite <- S'; apply (inside_upd ts i _ _ j N D)).
          pose proof (inside_at ts i _ N) as I0. cbn [t_stack] in I0.
          destruct (Nat.eqb_spec n m) as [->|D].
          + assert (X : inside_m ts i) by (apply I0; left; auto).
            assert (Y : ~ In m st).
            { intros K. pose proof (i_path _ V i _ N) as P. cbn [t_stack] in P. pose proof (path_lt _ _ _ P m K). lia. }
            split; auto. split; [apply C; auto|]. intros j. split; [discriminate|]. intros K. exfalso. destruct (Nat.eq_dec i j) as [<-|D]; [tauto|].
            apply D. apply (unique ts i j V X). apply Io; auto.
          + intros j. rewrite (C j). destruct (Nat.eq_dec i j) as [<-|D']; [|symmetry; auto]. rewrite I0, Ii. cbn [In]. tauto. }
      destruct (event_of ts m i) as [|[j b] [|e l]].
      - cbn [app]. apply IH; auto.
      - destruct b; destruct G as (-> & -> & G); cbn [app one_by_one]; [apply IH; auto|]. rewrite Nat.eqb_refl. cbn [andb]. apply IH; auto.
      - destruct b; contradiction.
    Qed.
  End Guard.
End P.

Theorem exclusion_thm : forall sync ups entries s m progs sched ts,
  (forall m n, In n (ups m) -> n < m) -> sync s = true -> (forall i l, path ups (entries i) (m :: l) -> s = m \/ In s l) ->
  sgok ups entries progs -> sgrun sync (sginit progs) sched = Some ts ->
  forall i j t u, nth_error ts i = Some t -> nth_error ts j = Some u -> In m (t_stack t) -> In m (t_stack u) -> i = j.
Proof.
  intros sync ups entries s m progs sched ts A S G O R i j t u. apply (exclusion sync ups entries s m S G ts i j t u).
  eapply run_inv; [apply init_inv; exact O|exact R].
Qed.
Theorem sequential_thm : forall sync ups entries s m progs sched,
  (forall m n, In n (ups m) -> n < m) -> sync s = true -> (forall i l, path ups (entries i) (m :: l) -> s = m \/ In s l) ->
  sgok ups entries progs -> one_by_one None (events sync m (sginit progs) sched) = true.
Proof.
  intros sync ups entries s m progs sched A S G O. apply (events_ok sync ups entries A s m S G sched _ None (init_inv sync ups entries progs O)).
  intros i. split; [discriminate|]. intros (t & N & I). apply init_nth in N. destruct N as (l & _ & ->). destruct I.
Qed.
