(** Proofs about the stream semantics of Async.v. *)
From Verif Require Import Async BaseLemmas.

Fixpoint aexecs (q : list aop) (s : cmem * locals) : option (cmem * locals) :=
  match q with [] => Some s | o :: q' => match aexec o s with Some s' => aexecs q' s' | None => None end end.

(** ** Operations *)
Definition same_kind (m m' : cmem) : Prop := m_dev m' = m_dev m /\ m_strict m' = m_strict m.
Lemma put_bytes_kind m a bs : same_kind m (put_bytes m a bs).
Proof. split; reflexivity. Qed.
Lemma do_copy_kind k n src dst m r m' : do_copy k n src dst m = (r, m') -> same_kind m m'.
Proof.
  unfold do_copy. intros H.
  repeat match type of H with (if ?b then _ else _) = _ => destruct b | match ?x with _ => _ end = _ => destruct x end;
    injection H as <- <-; split; reflexivity.
Qed.
Lemma do_copy_in_kind k bs dst m r m' : do_copy_in k bs dst m = (r, m') -> same_kind m m'.
Proof.
  unfold do_copy_in. intros H.
  repeat match type of H with (if ?b then _ else _) = _ => destruct b | match ?x with _ => _ end = _ => destruct x end;
    injection H as <- <-; split; reflexivity.
Qed.
Lemma do_copy_out_same k n src m r m' : do_copy_out k n src m = (r, m') -> m' = m.
Proof.
  unfold do_copy_out. intros H.
  repeat match type of H with (if ?b then _ else _) = _ => destruct b | match ?x with _ => _ end = _ => destruct x end;
    injection H as <- <-; reflexivity.
Qed.
Lemma do_memset_kind n dst v m r m' : do_memset n dst v m = (r, m') -> same_kind m m'.
Proof.
  unfold do_memset. intros H.
  repeat match type of H with (if ?b then _ else _) = _ => destruct b | match ?x with _ => _ end = _ => destruct x end;
    injection H as <- <-; split; reflexivity.
Qed.
Lemma same_kind_refl m : same_kind m m.
Proof. split; reflexivity. Qed.
Lemma same_kind_trans m1 m2 m3 : same_kind m1 m2 -> same_kind m2 m3 -> same_kind m1 m3.
Proof. intros (A & B) (C & D). split; congruence. Qed.

Lemma aexec_inv o m l m' l' : aexec o (m, l) = Some (m', l') ->
  match o with
  | AOCopy k n src dst => do_copy k n src dst m = (Ret tt, m') /\ l' = l
  | AOOut k n src x => exists b bs, nth_error l x = Some (Some b) /\ do_copy_out k n src m = (Ret bs, m') /\ l' = upd l x (Some bs)
  | AOIn k n x dst => exists bs, nth_error l x = Some (Some bs) /\ Z.of_nat (length bs) = n /\ do_copy_in k bs dst m = (Ret tt, m') /\ l' = l
  | AOSet n dst v => do_memset n dst v m = (Ret tt, m') /\ l' = l
  end.
Proof.
  unfold aexec, ok_mem. intros H. destruct o as [k n src dst|k n src x|k n x dst|n dst v].
  - destruct (do_copy k n src dst m) as [[[]| |] m1]; try discriminate. injection H as <- <-. auto.
  - destruct (nth_error l x) as [[b|]|]; try discriminate. destruct (do_copy_out k n src m) as [[bs| |] m1]; try discriminate.
    injection H as <- <-. eauto.
  - destruct (nth_error l x) as [[b|]|]; try discriminate. destruct (Z.eqb_spec (Z.of_nat (length b)) n) as [E|]; [|discriminate].
    destruct (do_copy_in k b dst m) as [[[]| |] m1] eqn:D; try discriminate. injection H as <- <-. eauto 6.
  - destruct (do_memset n dst v m) as [[[]| |] m1]; try discriminate. injection H as <- <-. auto.
Qed.

Lemma aexec_kind o m l m' l' : aexec o (m, l) = Some (m', l') -> same_kind m m' /\ length l' = length l.
Proof.
  intros H. apply aexec_inv in H. destruct o.
  - destruct H as (H & ->). split; [eapply do_copy_kind; eauto|auto].
  - destruct H as (b & bs & _ & H & ->). apply do_copy_out_same in H. subst. split; [apply same_kind_refl|apply upd_length].
  - destruct H as (bs & _ & _ & H & ->). split; [eapply do_copy_in_kind; eauto|auto].
  - destruct H as (H & ->). split; [eapply do_memset_kind; eauto|auto].
Qed.

Lemma issue_kind o m m' : same_kind m m' -> issue o m' = issue o m.
Proof. intros (A & B). unfold issue, kind_check. rewrite A, B. auto. Qed.

Lemma upd_app_l {A} (l1 l2 : list A) n x : (n < length l1)%nat -> upd (l1 ++ l2) n x = upd l1 n x ++ l2.
Proof. revert n. induction l1 as [|a l1 IH]; intros [|n] H; cbn [length] in H; cbn [upd app]; try lia; auto. f_equal. apply IH. lia. Qed.
Lemma upd_comm {A} (l : list A) n k x y : n <> k -> upd (upd l n x) k y = upd (upd l k y) n x.
Proof. revert n k. induction l as [|a l IH]; intros [|n] [|k] H; cbn [upd]; auto; [congruence|]. f_equal. apply IH. congruence. Qed.

Lemma aexec_app o m l m' l' b : aexec o (m, l) = Some (m', l') -> aexec o (m, l ++ b) = Some (m', l' ++ b).
Proof.
  intros H. apply aexec_inv in H. unfold aexec. destruct o.
  - destruct H as (-> & ->). auto.
  - destruct H as (c & bs & E & H & ->). pose proof (nth_error_lt _ _ _ E). rewrite nth_error_app1, E, H by auto. now rewrite upd_app_l.
  - destruct H as (bs & E & <- & H & ->). pose proof (nth_error_lt _ _ _ E). rewrite nth_error_app1, E, Z.eqb_refl, H by auto. auto.
  - destruct H as (-> & ->). auto.
Qed.
Lemma aexec_upd o m l m' l' x b : aop_uses o x = false -> aexec o (m, l) = Some (m', l') -> aexec o (m, upd l x b) = Some (m', upd l' x b).
Proof.
  intros U H. apply aexec_inv in H. unfold aexec. destruct o; cbn [aop_uses] in U.
  - destruct H as (-> & ->). auto.
  - apply Nat.eqb_neq in U. destruct H as (c & bs & E & H & ->). rewrite nth_error_upd_ne, E, H by auto. f_equal. f_equal. apply upd_comm. auto.
  - apply Nat.eqb_neq in U. destruct H as (bs & E & <- & H & ->). rewrite nth_error_upd_ne, E, Z.eqb_refl, H by auto. auto.
  - destruct H as (-> & ->). auto.
Qed.
Lemma aexec_nth o m l m' l' x : aop_uses o x = false -> aexec o (m, l) = Some (m', l') -> nth_error l' x = nth_error l x.
Proof.
  intros U H. apply aexec_inv in H. destruct o; cbn [aop_uses] in U.
  - destruct H as (_ & ->). auto.
  - apply Nat.eqb_neq in U. destruct H as (c & bs & _ & _ & ->). apply nth_error_upd_ne. auto.
  - destruct H as (_ & _ & _ & _ & ->). auto.
  - destruct H as (_ & ->). auto.
Qed.

Lemma aexecs_kind q : forall m l m' l', aexecs q (m, l) = Some (m', l') -> same_kind m m' /\ length l' = length l.
Proof.
  induction q as [|o q IH]; intros m l m' l' H; cbn [aexecs] in H; [injection H as <- <-; split; [apply same_kind_refl|auto]|].
  destruct (aexec o (m, l)) as [[m1 l1]|] eqn:E; [|discriminate]. apply aexec_kind in E. apply IH in H.
  destruct E, H. split; [eapply same_kind_trans; eauto|congruence].
Qed.
Lemma aexecs_snoc q o : forall s s' s'', aexecs q s = Some s' -> aexec o s' = Some s'' -> aexecs (q ++ [o]) s = Some s''.
Proof.
  induction q as [|p q IH]; intros s s' s'' H E; cbn [aexecs app] in *; [injection H as <-; now rewrite E|].
  destruct (aexec p s); [eauto|discriminate].
Qed.
Lemma aexecs_app_loc q b : forall m l m' l', aexecs q (m, l) = Some (m', l') -> aexecs q (m, l ++ b) = Some (m', l' ++ b).
Proof.
  induction q as [|o q IH]; intros m l m' l' H; cbn [aexecs] in *; [injection H as <- <-; auto|].
  destruct (aexec o (m, l)) as [[m1 l1]|] eqn:E; [|discriminate]. rewrite (aexec_app _ _ _ _ _ _ E). auto.
Qed.
Lemma aexecs_upd q x b : (forall o, In o q -> aop_uses o x = false) -> forall m l m' l',
  aexecs q (m, l) = Some (m', l') -> aexecs q (m, upd l x b) = Some (m', upd l' x b).
Proof.
  induction q as [|o q IH]; intros U m l m' l' H; cbn [aexecs] in *; [injection H as <- <-; auto|].
  destruct (aexec o (m, l)) as [[m1 l1]|] eqn:E; [|discriminate].
  rewrite (aexec_upd _ _ _ _ _ _ _ (U o (or_introl eq_refl)) E). apply IH; [intros o' Ho; apply U; right; auto|auto].
Qed.
Lemma aexecs_nth q x : (forall o, In o q -> aop_uses o x = false) -> forall m l m' l',
  aexecs q (m, l) = Some (m', l') -> nth_error l' x = nth_error l x.
Proof.
  induction q as [|o q IH]; intros U m l m' l' H; cbn [aexecs] in *; [injection H as <- <-; auto|].
  destruct (aexec o (m, l)) as [[m1 l1]|] eqn:E; [|discriminate].
  rewrite <- (aexec_nth _ _ _ _ _ _ (U o (or_introl eq_refl)) E). eapply IH; [intros o' Ho; apply U; right; auto|eauto].
Qed.

(** ** The stream and the reference *)
Record rel (s : sstate) (a : astate) : Prop := mkRel {
  r_exec : aexecs (a_q a) (a_mem a, a_loc a) = Some (s_mem s, s_loc s);
  r_pos : s_pos s = (a_exec a + length (a_q a))%nat;
  r_done : (s_done s <= a_exec a)%nat;
  r_evs : s_evs s = a_evs a;
  r_len : length (s_last s) = length (s_loc s);
  r_last : forall i o x n, nth_error (a_q a) i = Some o -> aop_uses o x = true -> nth_error (s_last s) x = Some n -> (a_exec a + S i <= n)%nat;
  r_evpos : Forall (fun o => (eo_pos o <= s_pos s)%nat) (s_evs s) }.

Lemma rel_init m : rel (s_init m) (a_init m).
Proof. constructor; cbn; auto; try lia. intros i o x n H. destruct i; discriminate. Qed.

Lemma rel_unused s a x n : rel s a -> nth_error (s_last s) x = Some n -> (n <= s_done s)%nat -> forall o, In o (a_q a) -> aop_uses o x = false.
Proof.
  intros R E H o Ho. apply In_nth_error in Ho. destruct Ho as (i & Ei).
  destruct (aop_uses o x) eqn:U; [|auto]. pose proof (r_last s a R i o x n Ei U E). pose proof (r_done s a R). lia.
Qed.
Lemma Forall_upd {A} (P : A -> Prop) l n x : Forall P l -> P x -> Forall P (upd l n x).
Proof. intros H Hx. revert n. induction H as [|a l Ha Hl IH]; intros [|n]; cbn [upd]; constructor; auto. Qed.
Lemma evpos_upd (s : sstate) e o o' : Forall (fun o => (eo_pos o <= s_pos s)%nat) (s_evs s) -> nth_error (s_evs s) e = Some o ->
  eo_pos o' = eo_pos o -> Forall (fun o => (eo_pos o <= s_pos s)%nat) (upd (s_evs s) e o').
Proof. intros F E H. apply Forall_upd; [auto|]. rewrite H. exact (proj1 (Forall_forall _ _) F o (nth_error_In _ _ E)). Qed.
Lemma ev_ignore_pos o : eo_pos (ev_ignore o) = eo_pos o.
Proof. unfold ev_ignore. destruct (eo_null o); auto. Qed.

Section Main.
  Variable fl : bool.
  Context {A : Type}.
  Implicit Types (p : prog A).

  Lemma host_pres p s a r s' p' a' : srun fl p s = (r, s') -> r <> UB -> rel s a -> host_step fl p a = Some (p', a') ->
    exists s1, srun fl p' s1 = (r, s') /\ rel s1 a'.
  Proof.
    intros H NU R HS. destruct p as [v|e| |o kf k|k|e k|e k|e k|bs k|x k|x k]; cbn [host_step srun] in *; try discriminate.
    - (* PIssue *)
      assert (KI : issue o (s_mem s) = issue o (a_mem a)).
      { apply issue_kind. exact (proj1 (aexecs_kind _ _ _ _ _ (r_exec s a R))). }
      rewrite KI in H. destruct (issue o (a_mem a)) as [[|]|e|].
      + destruct (aexec o (s_mem s, s_loc s)) as [[m l]|] eqn:E; [|congruence].
        injection HS as <- <-. eexists. split; [exact H|]. destruct R as [R1 R2 R3 R4 R5 R6 R7]. constructor; cbn [s_mem s_loc s_last s_pos s_done s_evs a_mem a_loc a_q a_exec a_evs]; auto.
        * eapply aexecs_snoc; eauto.
        * rewrite app_length. cbn [length]. lia.
        * apply aexec_kind in E. destruct E as (_ & E). rewrite E, <- R5. unfold touch. destruct o; auto; apply upd_length.
        * intros i o' x n Hi U Hn. destruct (Nat.eq_dec i (length (a_q a))) as [->|Ni].
          -- rewrite nth_error_app2, Nat.sub_diag in Hi by lia. injection Hi as <-.
             assert (Hn' : n = S (s_pos s)); [|lia].
             destruct o; cbn [aop_uses touch] in *; try discriminate; apply Nat.eqb_eq in U; subst;
               pose proof (nth_error_lt _ _ _ Hn) as HL; rewrite upd_length in HL; rewrite nth_error_upd_eq in Hn by auto; congruence.
          -- assert (Hi' : nth_error (a_q a) i = Some o').
             { rewrite nth_error_app1 in Hi; [auto|]. pose proof (nth_error_lt _ _ _ Hi) as HL. rewrite app_length in HL. cbn in HL. lia. }
             assert (HL : (i < length (a_q a))%nat) by (eapply nth_error_lt; eauto).
             assert (D : nth_error (s_last s) x = Some n \/ n = S (s_pos s)).
             { destruct o as [k0 n0 src dst|k0 n0 src y|k0 n0 y dst|n0 dst v]; cbn [touch] in Hn; auto;
                 (destruct (Nat.eq_dec y x) as [->|Ny];
                  [pose proof (nth_error_lt _ _ _ Hn) as HL'; rewrite upd_length in HL'; rewrite nth_error_upd_eq in Hn by auto; right; congruence
                  |rewrite nth_error_upd_ne in Hn by auto; auto]). }
             destruct D as [D|D]; [eapply R6; eauto|lia].
        * eapply Forall_impl; [|exact R7]. cbn. intros; lia.
      + injection HS as <- <-. eauto.
      + injection HS as <- <-. eauto.
      + congruence.
    - (* PEvent *)
      injection HS as <- <-. destruct R as [R1 R2 R3 R4 R5 R6 R7]. rewrite R4, R2 in H. eexists. split; [exact H|].
      constructor; cbn [s_mem s_loc s_last s_pos s_done s_evs a_mem a_loc a_q a_exec a_evs]; auto.
      apply Forall_app. split; [rewrite <- R4; eapply Forall_impl; [|exact R7]; cbn; intros; lia|repeat constructor; cbn; lia].
    - (* PWait *)
      pose proof (r_evs s a R) as RE. rewrite <- RE in HS. destruct (nth_error (s_evs s) e) as [o|] eqn:E; [|congruence].
      destruct (eo_alive o); cbn [negb] in *; [|congruence]. destruct (eo_null o) eqn:N.
      + injection HS as <- <-. eauto.
      + destruct (ev_ready o a) eqn:Y; [|discriminate]. injection HS as <- <-. eexists. split; [exact H|].
        unfold ev_ready in Y. apply Nat.leb_le in Y. destruct R as [R1 R2 R3 R4 R5 R6 R7].
        constructor; cbn [s_mem s_loc s_last s_pos s_done s_evs a_mem a_loc a_q a_exec a_evs]; auto; try lia.
        eapply evpos_upd; [exact R7|exact E|apply ev_ignore_pos].
    - (* PIgnore *)
      pose proof (r_evs s a R) as RE. rewrite <- RE in HS. destruct (nth_error (s_evs s) e) as [o|] eqn:E; [|congruence].
      destruct (eo_alive o); cbn [negb] in *; [|congruence]. injection HS as <- <-. eexists. split; [exact H|].
      destruct R as [R1 R2 R3 R4 R5 R6 R7]. constructor; cbn [s_mem s_loc s_last s_pos s_done s_evs a_mem a_loc a_q a_exec a_evs]; auto.
      eapply evpos_upd; [exact R7|exact E|apply ev_ignore_pos].
    - (* PDestroy *)
      pose proof (r_evs s a R) as RE. rewrite <- RE in HS. destruct (nth_error (s_evs s) e) as [o|] eqn:E; [|congruence].
      destruct (eo_alive o); cbn [negb] in *; [|congruence]. destruct (eo_null o) eqn:N.
      + injection HS as <- <-. eexists. split; [exact H|]. destruct R as [R1 R2 R3 R4 R5 R6 R7].
        constructor; cbn [s_mem s_loc s_last s_pos s_done s_evs a_mem a_loc a_q a_exec a_evs]; auto. eapply evpos_upd; [exact R7|exact E|reflexivity].
      + destruct (ev_ready o a) eqn:Y; [|discriminate]. destruct fl; [congruence|]. injection HS as <- <-. eexists. split; [exact H|].
        unfold ev_ready in Y. apply Nat.leb_le in Y. destruct R as [R1 R2 R3 R4 R5 R6 R7].
        constructor; cbn [s_mem s_loc s_last s_pos s_done s_evs a_mem a_loc a_q a_exec a_evs]; auto; try lia.
        eapply evpos_upd; [exact R7|exact E|]. change (eo_pos (ev_ignore o) = eo_pos o). apply ev_ignore_pos.
    - (* PLocal *)
      injection HS as <- <-. destruct R as [R1 R2 R3 R4 R5 R6 R7].
      pose proof (proj2 (aexecs_kind _ _ _ _ _ R1)) as L. rewrite L in H. eexists. split; [exact H|].
      constructor; cbn [s_mem s_loc s_last s_pos s_done s_evs a_mem a_loc a_q a_exec a_evs]; auto.
      + apply aexecs_app_loc. auto.
      + rewrite !app_length. cbn [length]. congruence.
      + intros i o x n Hi U Hn.
        assert (Hx : (x < length (s_last s))%nat).
        { rewrite R5, L.
          assert (G : exists m1 l1 m2 l2, length l1 = length (a_loc a) /\ aexec o (m1, l1) = Some (m2, l2)).
          { clear - R1 Hi. revert R1 i Hi. generalize (a_mem a) (a_loc a). induction (a_q a) as [|o' q IH]; intros m l R1 i Hi; [destruct i; discriminate|].
            cbn [aexecs] in R1. destruct (aexec o' (m, l)) as [[m1 l1]|] eqn:E; [|discriminate]. destruct i as [|i].
            - injection Hi as ->. exists m, l, m1, l1. auto.
            - destruct (IH m1 l1 R1 i Hi) as (m2 & l2 & m3 & l3 & Q1 & Q2). exists m2, l2, m3, l3. split; [|auto].
              rewrite Q1. exact (proj2 (aexec_kind _ _ _ _ _ E)). }
          destruct G as (m1 & l1 & m2 & l2 & GL & G). rewrite <- GL. apply aexec_inv in G.
          destruct o; cbn [aop_uses] in U; try discriminate; apply Nat.eqb_eq in U; subst.
          - destruct G as (b & bs0 & G & _). eapply nth_error_lt; eauto.
          - destruct G as (b & G & _). eapply nth_error_lt; eauto. }
        rewrite nth_error_app1 in Hn by auto. eapply R6; eauto.
    - (* PGet *)
      destruct (nth_error (s_loc s) x) as [[bs|]|] eqn:E; try congruence. destruct (nth_error (s_last s) x) as [n|] eqn:En; [|congruence].
      destruct (Nat.leb_spec n (s_done s)); [|congruence].
      pose proof (rel_unused s a x n R En H0) as U.
      rewrite (aexecs_nth _ x U _ _ _ _ (r_exec s a R)) in E. rewrite E in HS. injection HS as <- <-. eauto.
    - (* PFree *)
      destruct (nth_error (s_loc s) x) as [[bs|]|] eqn:E; try congruence. destruct (nth_error (s_last s) x) as [n|] eqn:En; [|congruence].
      destruct (Nat.leb_spec n (s_done s)); [|congruence].
      pose proof (rel_unused s a x n R En H0) as U.
      rewrite (aexecs_nth _ x U _ _ _ _ (r_exec s a R)) in E. rewrite E in HS. injection HS as <- <-. eexists. split; [exact H|].
      destruct R as [R1 R2 R3 R4 R5 R6 R7]. constructor; cbn [s_mem s_loc s_last s_pos s_done s_evs a_mem a_loc a_q a_exec a_evs]; auto.
      + apply aexecs_upd; auto.
      + rewrite upd_length. auto.
  Qed.

  Lemma stream_pres p s a p' a' : rel s a -> stream_step p a = Some (p', a') -> p' = p /\ rel s a'.
  Proof.
    intros [R1 R2 R3 R4 R5 R6 R7] H. unfold stream_step in H. destruct (a_q a) as [|o q] eqn:Q; [discriminate|].
    cbn [aexecs] in R1. destruct (aexec o (a_mem a, a_loc a)) as [[m l]|]; [|discriminate]. injection H as <- <-.
    split; [auto|]. cbn [length] in R2. constructor; cbn [a_mem a_loc a_q a_exec a_evs]; auto; try lia.
    intros i o' x n Hi U Hn. pose proof (R6 (S i) o' x n Hi U Hn). lia.
  Qed.

  Lemma steps_pres : forall c c' : prog A * astate, asteps fl c c' -> forall s r s', srun fl (fst c) s = (r, s') -> r <> UB -> rel s (snd c) ->
    exists s1, srun fl (fst c') s1 = (r, s') /\ rel s1 (snd c').
  Proof.
    induction 1 as [c|c1 c2 c3 S1 S2 IH]; intros s r s' H NU R; [eauto|].
    inversion S1 as [p a c HS|p a c HS]; subst; destruct c2 as [p2 a2]; cbn [fst snd] in *.
    - destruct (host_pres p s a r s' p2 a2 H NU R HS) as (s1 & H1 & R1). eauto.
    - destruct (stream_pres p s a p2 a2 R HS) as (-> & R1). eauto.
  Qed.

  (** Nothing undefined happens, the result is the same, and the memory is the same after the
      operations left in the stream. *)
  Theorem async_thm p m r s' : srun fl p (s_init m) = (r, s') -> r <> UB -> forall p' a', asteps fl (p, a_init m) (p', a') ->
    p' <> PUB /\
    (forall v, p' = PRet v -> r = Ret v) /\ (forall e, p' = PThrow e -> r = Throw e) /\
    ((exists v, p' = PRet v) \/ (exists e, p' = PThrow e) ->
       (a_exec a' + length (a_q a') = s_pos s' /\ s_done s' <= a_exec a')%nat /\
       aexecs (a_q a') (a_mem a', a_loc a') = Some (s_mem s', s_loc s') /\ a_evs a' = s_evs s').
  Proof.
    intros H NU p' a' ST. destruct (steps_pres _ _ ST _ _ _ H NU (rel_init m)) as (s1 & H1 & R). cbn [fst snd] in *.
    split; [intros ->; cbn in H1; congruence|]. split; [intros v ->; cbn in H1; congruence|]. split; [intros e ->; cbn in H1; congruence|].
    intros F. assert (s1 = s') by (destruct F as [(v & ->)|(e & ->)]; cbn in H1; congruence). subst s1.
    destruct R as [R1 R2 R3 R4 R5 R6 R7]. auto.
  Qed.
  Theorem async_quiet p m r s' : srun fl p (s_init m) = (r, s') -> r <> UB -> s_done s' = s_pos s' -> forall p' a', asteps fl (p, a_init m) (p', a') ->
    (exists v, p' = PRet v) \/ (exists e, p' = PThrow e) -> a_q a' = [] /\ a_mem a' = s_mem s'.
  Proof.
    intros H NU D p' a' ST F. destruct (async_thm p m r s' H NU p' a' ST) as (_ & _ & _ & G). destruct (G F) as ((G1 & G2) & G3 & _).
    assert (Q : a_q a' = []) by (destruct (a_q a'); [auto|cbn [length] in G1; lia]).
    split; [auto|]. rewrite Q in G3. cbn in G3. congruence.
  Qed.

  (** The program never gets stuck. *)
  Theorem async_progress p m r s' : srun fl p (s_init m) = (r, s') -> r <> UB -> forall p' a', asteps fl (p, a_init m) (p', a') ->
    (exists v, p' = PRet v) \/ (exists e, p' = PThrow e) \/ exists c, astep fl (p', a') c.
  Proof.
    intros H NU p' a' ST. destruct (steps_pres _ _ ST _ _ _ H NU (rel_init m)) as (s1 & H1 & R). cbn [fst snd] in *.
    assert (SS : a_q a' <> [] -> exists c, astep fl (p', a') c).
    { intros Q. destruct (stream_step p' a') as [c|] eqn:E; [exists c; now apply step_stream|].
      unfold stream_step in E. destruct (a_q a') as [|o q]; [congruence|]. destruct (aexec o (a_mem a', a_loc a')) as [[? ?]|]; discriminate. }
    assert (W : forall o, In o (a_evs a') -> ev_ready o a' = false -> a_q a' <> []).
    { intros o Ho Y Q. unfold ev_ready in Y. apply Nat.leb_gt in Y. rewrite <- (r_evs s1 a' R) in Ho.
      pose proof (proj1 (Forall_forall _ _) (r_evpos s1 a' R) o Ho) as P. cbn in P. pose proof (r_pos s1 a' R) as P2. rewrite Q in P2. cbn in P2. lia. }
    destruct (host_step fl p' a') as [c|] eqn:E; [right; right; exists c; now apply step_host|].
    destruct p' as [v|e| |o kf k|k|e k|e k|e k|bs k|x k|x k]; cbn [host_step] in E; eauto.
    - cbn in H1. congruence.
    - destruct (issue o (a_mem a')) as [[|]| |]; discriminate.
    - discriminate.
    - destruct (nth_error (a_evs a') e) as [o|] eqn:Eo; [|discriminate]. destruct (eo_alive o); [|discriminate]. cbn [negb] in E.
      destruct (eo_null o); [discriminate|]. destruct (ev_ready o a') eqn:Y; [discriminate|]. right. right. apply SS. apply (W o); [eapply nth_error_In; eauto|auto].
    - destruct (nth_error (a_evs a') e) as [o|] eqn:Eo; [|discriminate]. destruct (eo_alive o); discriminate.
    - destruct (nth_error (a_evs a') e) as [o|] eqn:Eo; [|discriminate]. destruct (eo_alive o); [|discriminate]. cbn [negb] in E.
      destruct (eo_null o); [discriminate|]. destruct (ev_ready o a') eqn:Y; [discriminate|]. right. right. apply SS. apply (W o); [eapply nth_error_In; eauto|auto].
    - discriminate.
    - destruct (nth_error (a_loc a') x) as [[|]|]; discriminate.
    - destruct (nth_error (a_loc a') x) as [[|]|]; discriminate.
  Qed.
End Main.

(** Every schedule comes to an end. *)
Lemma acc_pub fl {A} : forall n a, length (a_q a) = n -> Acc (fun c2 c1 => @astep fl A c1 c2) (PUB, a).
Proof.
  induction n as [|n IH]; intros a L; constructor; intros c S; inversion S as [p0 a0 c0 H|p0 a0 c0 H]; subst; try discriminate;
    unfold stream_step in H; destruct (a_q a) as [|o q] eqn:Q; try discriminate.
  destruct (aexec o (a_mem a, a_loc a)) as [[m l]|]; injection H as <-.
  - apply IH. cbn in *. lia.
  - constructor. intros c S'. inversion S' as [p0 a0 c0 H|p0 a0 c0 H]; subst; discriminate.
Qed.
Lemma acc_node fl {A} (p : prog A) :
  (forall a p' a', host_step fl p a = Some (p', a') -> Acc (fun c2 c1 => astep fl c1 c2) (p', a')) ->
  forall a, Acc (fun c2 c1 => astep fl c1 c2) (p, a).
Proof.
  intros HP a. remember (length (a_q a)) as n eqn:L. revert a L. induction n as [|n IH]; intros a L; constructor; intros c S;
    inversion S as [p0 a0 c0 H|p0 a0 c0 H]; subst.
  - destruct c as [p' a']. eauto.
  - unfold stream_step in H. destruct (a_q a); discriminate.
  - destruct c as [p' a']. eauto.
  - unfold stream_step in H. destruct (a_q a) as [|o q] eqn:Q; [discriminate|].
    destruct (aexec o (a_mem a, a_loc a)) as [[m l]|]; injection H as <-.
    + apply IH. cbn in *. lia.
    + eapply acc_pub. reflexivity.
Qed.
Theorem async_terminates fl {A} (p : prog A) : forall a, Acc (fun c2 c1 => astep fl c1 c2) (p, a).
Proof.
  assert (Pub : forall a, Acc (fun c2 c1 => @astep fl A c1 c2) (PUB, a)) by (intros a; eapply acc_pub; reflexivity).
  induction p as [v|e| |o kf IHf k IHk|k IH|e k IH|e k IH|e k IH|bs k IH|x k IH|x k IH]; apply acc_node; intros a p' a' H; cbn [host_step] in H; try discriminate.
  - destruct (issue o (a_mem a)) as [[|]| |]; injection H as <- <-; auto.
  - injection H as <- <-. auto.
  - destruct (nth_error (a_evs a) e) as [o|]; [|injection H as <- <-; auto]. destruct (eo_alive o); cbn [negb] in H; [|injection H as <- <-; auto].
    destruct (eo_null o); [injection H as <- <-; auto|]. destruct (ev_ready o a); [injection H as <- <-; auto|discriminate].
  - destruct (nth_error (a_evs a) e) as [o|]; [|injection H as <- <-; auto]. destruct (eo_alive o); cbn [negb] in H; injection H as <- <-; auto.
  - destruct (nth_error (a_evs a) e) as [o|]; [|injection H as <- <-; auto]. destruct (eo_alive o); cbn [negb] in H; [|injection H as <- <-; auto].
    destruct (eo_null o); [injection H as <- <-; auto|]. destruct (ev_ready o a); [|discriminate]. destruct fl; injection H as <- <-; auto.
  - injection H as <- <-. auto.
  - destruct (nth_error (a_loc a) x) as [[|]|]; injection H as <- <-; auto.
  - destruct (nth_error (a_loc a) x) as [[|]|]; injection H as <- <-; auto.
Qed.

(** ** Events are destroyed exactly once, in any program and any schedule. *)
Definition ev_inv (o : evobj) : Prop := eo_destroyed o = (if eo_null o then 1 else 0)%nat /\ (eo_alive o = false -> eo_null o = true).
Lemma ev_ignore_inv o : ev_inv o -> eo_alive o = true -> ev_inv (ev_ignore o) /\ eo_null (ev_ignore o) = true.
Proof.
  unfold ev_inv, ev_ignore. intros (H1 & H2) Al. destruct (eo_null o) eqn:N; [rewrite N; auto|]. cbn. rewrite H1. auto.
Qed.
Theorem events_thm fl {A} (c c' : prog A * astate) : asteps fl c c' -> Forall ev_inv (a_evs (snd c)) -> Forall ev_inv (a_evs (snd c')).
Proof.
  induction 1 as [c|c1 c2 c3 S1 _ IH]; [auto|]. intros F. apply IH. clear IH.
  inversion S1 as [p a c H|p a c H]; subst; cbn [snd] in *.
  - assert (U : forall e o, nth_error (a_evs a) e = Some o -> ev_inv o) by (intros e o E; exact (proj1 (Forall_forall _ _) F o (nth_error_In _ _ E))).
    destruct p as [v|e| |o kf k|k|e k|e k|e k|bs k|x k|x k]; cbn [host_step] in H; try discriminate.
    + destruct (issue o (a_mem a)) as [[|]| |]; injection H as <-; auto.
    + injection H as <-. cbn. apply Forall_app. split; [auto|]. repeat constructor. discriminate.
    + destruct (nth_error (a_evs a) e) as [o|] eqn:E; [|injection H as <-; auto]. destruct (eo_alive o) eqn:Al; cbn [negb] in H; [|injection H as <-; auto].
      destruct (eo_null o); [injection H as <-; auto|]. destruct (ev_ready o a); [injection H as <-; cbn|discriminate].
      apply Forall_upd; [auto|]. apply ev_ignore_inv; eauto.
    + destruct (nth_error (a_evs a) e) as [o|] eqn:E; [|injection H as <-; auto]. destruct (eo_alive o) eqn:Al; cbn [negb] in H; injection H as <-; auto.
      cbn. apply Forall_upd; [auto|]. apply ev_ignore_inv; eauto.
    + destruct (nth_error (a_evs a) e) as [o|] eqn:E; [|injection H as <-; auto]. destruct (eo_alive o) eqn:Al; cbn [negb] in H; [|injection H as <-; auto].
      destruct (eo_null o) eqn:N; [injection H as <-; cbn|destruct (ev_ready o a); [injection H as <-; cbn|discriminate]].
      * apply Forall_upd; [auto|]. destruct (U e o E) as (H1 & H2). split; cbn; auto.
      * apply Forall_upd; [auto|]. destruct (ev_ignore_inv o (U e o E) Al) as ((H1 & H2) & H3). split; cbn; auto.
    + injection H as <-. auto.
    + destruct (nth_error (a_loc a) x) as [[|]|]; injection H as <-; auto.
    + destruct (nth_error (a_loc a) x) as [[|]|]; injection H as <-; auto.
  - unfold stream_step in H. destruct (a_q a) as [|o q]; [discriminate|]. destruct (aexec o (a_mem a, a_loc a)) as [[m l]|]; injection H as <-; auto.
Qed.
