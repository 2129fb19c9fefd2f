(** Copies of a synchronized resource. *)
From Verif Require Import Base BaseLemmas SyncCopy.

(** The holder of a mutex. *)
Lemma holder n tr s : sexec n tr s -> forall t, In (st_phase (sth s t)) [2; 3; 4]%nat -> locks s (st_o (sth s t)) = Some t.
Proof.
  intros H. induction H as [|tr s l s' H IH ST]; intros v Hv.
  - cbn in Hv. lia.
  - destruct ST as [s t o Ho Q|s t Q L|s t Q|s t Q|s t Q|s t Q]; cbn [locks sth] in *; unfold setf in *;
      destruct (Nat.eqb_spec v t) as [E|N]; cbn [st_phase st_o] in *; try (cbn [In] in Hv; lia); try (exact (IH v Hv)).
    + rewrite Nat.eqb_refl, E. reflexivity.
    + destruct (Nat.eqb_spec (st_o (sth s v)) (st_o (sth s t))) as [E|]; [|exact (IH v Hv)].
      specialize (IH v Hv). rewrite E in IH. congruence.
    + subst v. apply IH. rewrite Q. cbn. auto.
    + subst v. apply IH. rewrite Q. cbn. auto.
    + destruct (Nat.eqb_spec (st_o (sth s v)) (st_o (sth s t))) as [E|]; [|exact (IH v Hv)].
      pose proof (IH v Hv) as I1. rewrite E in I1. rewrite (IH t) in I1; [congruence|]. rewrite Q. cbn. auto.
Qed.

Definition begin_at (tr : list slabel) (i t o k : nat) : Prop := nth_error tr i = Some (mkSL t o k 2).
Definition end_at (tr : list slabel) (i t o k : nat) : Prop := nth_error tr i = Some (mkSL t o k 3).

Lemma nth_snoc {A} (l : list A) x i y : nth_error (l ++ [x]) i = Some y -> nth_error l i = Some y \/ (i = length l /\ y = x).
Proof.
  intros H. destruct (Nat.lt_ge_cases i (length l)) as [L|L].
  - rewrite nth_error_app1 in H by exact L. auto.
  - rewrite nth_error_app2 in H by exact L. destruct (i - length l)%nat as [|m] eqn:E; cbn in H; [injection H as <-; right; split; [lia|reflexivity]|destruct m; discriminate H].
Qed.
Lemma nth_keep {A} (l : list A) x i y : nth_error l i = Some y -> nth_error (l ++ [x]) i = Some y.
Proof. intros H. rewrite nth_error_app1; [exact H|]. apply nth_error_Some. congruence. Qed.

(** Every call of the upstream resource through [o] has ended before the next one through [o]
    began, or is the last one and has not ended. *)
Lemma one_at_a_time n tr s : sexec n tr s -> forall i t o k, begin_at tr i t o k ->
  (exists m, (i < m)%nat /\ end_at tr m t o k /\ forall j t' k', (i < j < m)%nat -> ~ begin_at tr j t' o k') \/
  ((forall j t' k', (i < j)%nat -> ~ begin_at tr j t' o k') /\ sth s t = mkST o k 3).
Proof.
  unfold begin_at, end_at. intros H. induction H as [|tr s l s' H IH ST]; intros i t o k Hi; [destruct i; discriminate Hi|].
  apply nth_snoc in Hi. destruct Hi as [Hi|(-> & <-)].
  - assert (LI : (i < length tr)%nat) by (apply nth_error_Some; congruence).
    destruct (IH i t o k Hi) as [(m & M1 & M2 & M3)|(N & T)].
    + assert (LM : (m < length tr)%nat) by (apply nth_error_Some; congruence).
      left. exists m. split; [exact M1|]. split; [apply nth_keep; exact M2|]. intros j t' k' Hj Hb.
      apply nth_snoc in Hb. destruct Hb as [Hb|(-> & _)]; [exact (M3 j t' k' Hj Hb)|lia].
    + pose proof (holder n tr s H t) as HO. rewrite T in HO. cbn [st_phase st_o In] in HO. specialize (HO ltac:(auto)).
      destruct (Nat.eq_dec (sl_g l) 3) as [G3|G3]; [destruct (Nat.eq_dec (sl_t l) t) as [Et|Nt]|].
      * (* the call ends *)
        left. exists (length tr). split; [exact LI|]. split.
        -- destruct ST; cbn [sl_g sl_t] in *; try discriminate. subst t0. rewrite nth_error_app2, Nat.sub_diag by lia. cbn. rewrite T. reflexivity.
        -- intros j t' k' Hj Hb. apply nth_snoc in Hb. destruct Hb as [Hb|(-> & _)]; [|lia]. exact (N j t' k' ltac:(lia) Hb).
      * right. split.
        -- intros j t' k' Hj Hb. apply nth_snoc in Hb. destruct Hb as [Hb|(_ & E)]; [exact (N j t' k' Hj Hb)|]. rewrite <- E in G3. discriminate G3.
        -- destruct ST; cbn [sl_g sl_t sth] in *; try discriminate. unfold setf. destruct (Nat.eqb_spec t t0); [congruence|exact T].
      * right. split.
        -- intros j t' k' Hj Hb. apply nth_snoc in Hb. destruct Hb as [Hb|(_ & E)]; [exact (N j t' k' Hj Hb)|].
           (* another call begins: its thread would hold the mutex too *)
           destruct ST as [s u o' Ho Q|s u Q L|s u Q|s u Q|s u Q|s u Q]; try discriminate E. injection E as E1 E2 E3. subst.
           pose proof (holder n tr s H u) as HU. rewrite Q in HU. cbn [In] in HU. specialize (HU ltac:(auto)). rewrite HO in HU. injection HU as <-.
           rewrite T in Q. discriminate Q.
        -- destruct ST as [s u o' Ho Q|s u Q L|s u Q|s u Q|s u Q|s u Q]; cbn [sl_g sth] in *; unfold setf; destruct (Nat.eqb_spec t u) as [<-|]; try exact T;
             rewrite T in Q; cbn in Q; try discriminate Q. contradiction.
  - right. split.
    + intros j t' k' Hj Hb. apply nth_snoc in Hb. destruct Hb as [Hb|(-> & _)]; [|lia].
      assert (j < length tr)%nat by (apply nth_error_Some; congruence). lia.
    + inversion ST; subst. cbn [sth]. unfold setf. rewrite Nat.eqb_refl. reflexivity.
Qed.

Lemma same_object n tr s i j t t' o k k' : sexec n tr s -> (i < j)%nat -> begin_at tr i t o k -> begin_at tr j t' o k' ->
  exists m, (i < m < j)%nat /\ end_at tr m t o k.
Proof.
  intros H Hij Hi Hj. destruct (one_at_a_time n tr s H i t o k Hi) as [(m & M1 & M2 & M3)|(N & _)].
  - exists m. split; [|exact M2]. destruct (Nat.lt_trichotomy m j) as [L|[->|L]]; [lia| |].
    + unfold begin_at, end_at in *. congruence.
    + exfalso. exact (M3 j t' k' ltac:(lia) Hj).
  - exfalso. exact (N j t' k' Hij Hj).
Qed.

(** ** Executions from schedules: the next stage of a thread; [o] is the object that an idle
    thread calls. *)
Definition snext (n : nat) (s : sstate) (t o : nat) : option (slabel * sstate) :=
  let x := sth s t in
  match st_phase x with
  | 0%nat => if Nat.ltb o n then Some (mkSL t o (st_k x) 0, mkSS (locks s) (setf (sth s) t (mkST o (st_k x) 1))) else None
  | 1%nat => match locks s (st_o x) with
             | None => Some (mkSL t (st_o x) (st_k x) 1, mkSS (setf (locks s) (st_o x) (Some t)) (setf (sth s) t (mkST (st_o x) (st_k x) 2)))
             | Some _ => None
             end
  | 2%nat => Some (mkSL t (st_o x) (st_k x) 2, mkSS (locks s) (setf (sth s) t (mkST (st_o x) (st_k x) 3)))
  | 3%nat => Some (mkSL t (st_o x) (st_k x) 3, mkSS (locks s) (setf (sth s) t (mkST (st_o x) (st_k x) 4)))
  | 4%nat => Some (mkSL t (st_o x) (st_k x) 4, mkSS (setf (locks s) (st_o x) None) (setf (sth s) t (mkST (st_o x) (st_k x) 5)))
  | 5%nat => Some (mkSL t (st_o x) (st_k x) 5, mkSS (locks s) (setf (sth s) t (mkST (st_o x) (S (st_k x)) 0)))
  | _ => None
  end.
Lemma snext_step n s t o l s' : snext n s t o = Some (l, s') -> sstep n s l s'.
Proof.
  unfold snext. destruct (st_phase (sth s t)) as [|[|[|[|[|[|]]]]]] eqn:P; try discriminate.
  - destruct (Nat.ltb_spec o n); [|discriminate]. intros [= <- <-]. apply ss_inv; assumption.
  - destruct (locks s (st_o (sth s t))) eqn:L; [discriminate|]. intros [= <- <-]. apply ss_lock; assumption.
  - intros [= <- <-]. apply ss_begin; assumption.
  - intros [= <- <-]. apply ss_end; assumption.
  - intros [= <- <-]. apply ss_unlock; assumption.
  - intros [= <- <-]. apply ss_ret; assumption.
Qed.
Fixpoint splay (n : nat) (sched : list (nat * nat)) (tr : list slabel) (s : sstate) : option (list slabel * sstate) :=
  match sched with
  | [] => Some (tr, s)
  | (t, o) :: sched' => match snext n s t o with Some (l, s') => splay n sched' (tr ++ [l]) s' | None => None end
  end.
Lemma splay_exec n sched : forall tr s tr', sexec n tr s -> option_map fst (splay n sched tr s) = Some tr' -> exists s', sexec n tr' s'.
Proof.
  induction sched as [|[t o] sched IH]; intros tr s tr' H; cbn [splay].
  - intros [= <-]. exists s. exact H.
  - destruct (snext n s t o) as [[l s1]|] eqn:E; [|discriminate]. apply IH. eapply se_snoc; [exact H|]. eapply snext_step; exact E.
Qed.
