(** Proofs about the wrappers of streams and queues. *)
From Verif Require Import Base BaseLemmas Wrappers.

(** ** Counting owners *)
Lemma owners_app i l o : owners i (l ++ [o]) = (owners i l + if owns i o then 1 else 0)%nat.
Proof. unfold owners. rewrite filter_app, app_length. cbn [filter]. destruct (owns i o); cbn; lia. Qed.
Lemma owners_upd i l a o x : nth_error l a = Some x ->
  (owners i (upd l a o) + (if owns i x then 1 else 0) = owners i l + if owns i o then 1 else 0)%nat.
Proof.
  unfold owners. revert a. induction l as [|y l IH]; intros [|a] H; cbn [nth_error upd filter] in *; try discriminate.
  - injection H as ->. destruct (owns i x), (owns i o); cbn [length]; lia.
  - specialize (IH a H). destruct (owns i y); cbn [length]; lia.
Qed.
Lemma owners_pos i l a x : nth_error l a = Some x -> owns i x = true -> (1 <= owners i l)%nat.
Proof.
  intros H Hx. unfold owners. assert (I : In x (filter (owns i) l)) by (apply filter_In; split; [eapply nth_error_In; eauto|auto]).
  destruct (filter (owns i) l); [destruct I|cbn; lia].
Qed.
Lemma owns_iff i o : owns i o = true <-> managed o = Some i.
Proof. destruct o as [[h [j|]]|]; cbn; [rewrite Nat.eqb_eq|..]; split; intros; congruence. Qed.
Lemma get_nth s a w : get_w s a = Some w -> nth_error (ws_obj s) a = Some (Some w).
Proof. unfold get_w. destruct (nth_error (ws_obj s) a) as [[w'|]|]; congruence. Qed.

(** ** The invariant: a stream (queue object) has been destroyed once if nobody owns it, and not at all otherwise. *)
Definition life (s : ws) : Prop :=
  length (ws_id s) = length (ws_dead s) /\
  forall i d, nth_error (ws_dead s) i = Some d -> d = if Nat.eqb (owners i (ws_obj s)) 0 then 1%nat else 0%nat.
Definition wf (s : ws) : Prop := forall a w i, nth_error (ws_obj s) a = Some (Some w) -> w_managed w = Some i -> (i < length (ws_dead s))%nat.
(** The bare pointer and the managed object agree. *)
Definition coherent (s : ws) : Prop := forall a w i, nth_error (ws_obj s) a = Some (Some w) -> w_managed w = Some i -> w_ptr w = Lib i.

Lemma kill_dead i s j d : nth_error (ws_dead (kill i s)) j = Some d -> exists d0, nth_error (ws_dead s) j = Some d0 /\ d = if Nat.eqb i j then S d0 else d0.
Proof.
  unfold kill. cbn [ws_dead]. intros H. destruct (Nat.eq_dec i j) as [<-|N].
  - rewrite Nat.eqb_refl. destruct (nth_error (ws_dead s) i) as [d0|] eqn:E.
    + rewrite nth_error_upd_eq in H by (eapply nth_error_lt; eauto). injection H as <-. exists d0. split; [auto|]. f_equal. eapply nth_error_nth in E. exact E.
    + apply nth_error_None in E. apply nth_error_lt in H. rewrite upd_length in H. lia.
  - rewrite nth_error_upd_ne in H by auto. exists d. split; [auto|]. replace (Nat.eqb i j) with false by (symmetry; apply Nat.eqb_neq; auto). auto.
Qed.
Lemma no_owner s i : wf s -> (length (ws_dead s) <= i)%nat -> owners i (ws_obj s) = 0%nat.
Proof.
  intros W L. unfold owners. destruct (filter (owns i) (ws_obj s)) as [|x l] eqn:E; [auto|]. exfalso.
  assert (I : In x (filter (owns i) (ws_obj s))) by (rewrite E; now left). apply filter_In in I. destruct I as (I & O). apply In_nth_error in I. destruct I as (a & Ha).
  apply owns_iff in O. destruct x as [w|]; [|discriminate]. specialize (W a w i Ha O). lia.
Qed.

Lemma life_new s q w : life s -> wf s -> w_managed w = Some (length (ws_dead s)) ->
  life (push_w (snd (new_obj s q)) w) /\ wf (push_w (snd (new_obj s q)) w).
Proof.
  intros (L & H) W E. cbn [new_obj snd push_w ws_obj ws_dead ws_id]. split.
  - split; cbn [new_obj snd push_w ws_id ws_dead ws_obj]; [rewrite !app_length; cbn; lia|]. intros i d Hi. rewrite owners_app.
    destruct (Nat.lt_ge_cases i (length (ws_dead s))) as [Lt|Ge].
    + rewrite nth_error_app1 in Hi by auto. rewrite (H i d Hi). replace (owns i (Some w)) with false; [now rewrite Nat.add_0_r|].
      symmetry. destruct (owns i (Some w)) eqn:X; [|auto]. apply owns_iff in X. cbn in X. rewrite E in X. injection X as <-. lia.
    + rewrite nth_error_app2 in Hi by auto. destruct (i - length (ws_dead s))%nat as [|k] eqn:K; [|destruct k; discriminate]. injection Hi as <-.
      assert (i = length (ws_dead s)) by lia. subst i. replace (owns (length (ws_dead s)) (Some w)) with true by (symmetry; apply owns_iff; exact E).
      rewrite Nat.add_1_r. reflexivity.
  - intros a w' i Ha Hm. cbn [new_obj snd push_w ws_obj ws_dead] in *. rewrite app_length. cbn [length].
    destruct (Nat.lt_ge_cases a (length (ws_obj s))) as [Lt|Ge].
    + rewrite nth_error_app1 in Ha by auto. specialize (W a w' i Ha Hm). lia.
    + rewrite nth_error_app2 in Ha by auto. destruct (a - length (ws_obj s))%nat as [|k]; [|destruct k; discriminate]. injection Ha as <-. rewrite E in Hm. injection Hm as <-. lia.
Qed.
Lemma life_push s w : life s -> wf s -> (w_managed w = None \/ exists b, get_w s b = Some w) -> life (push_w s w) /\ wf (push_w s w).
Proof.
  intros (L & H) W E. split.
  - split; [exact L|]. cbn [push_w ws_dead ws_obj]. intros i d Hi. rewrite owners_app. rewrite (H i d Hi). destruct (owns i (Some w)) eqn:X; [|now rewrite Nat.add_0_r].
    destruct E as [E|(b & E)]; [apply owns_iff in X; cbn in X; congruence|]. apply get_nth in E. pose proof (owners_pos i _ _ _ E X).
    destruct (owners i (ws_obj s)); [lia|]. reflexivity.
  - intros a w' i Ha Hm. cbn [push_w ws_obj ws_dead] in *. destruct (Nat.lt_ge_cases a (length (ws_obj s))) as [Lt|Ge].
    + rewrite nth_error_app1 in Ha by auto. eapply W; eauto.
    + rewrite nth_error_app2 in Ha by auto. destruct (a - length (ws_obj s))%nat as [|k]; [|destruct k; discriminate]. injection Ha as <-.
      destruct E as [E|(b & E)]; [congruence|]. apply get_nth in E. eapply W; eauto.
Qed.
Lemma upd_inv {A} (l : list A) a x b y : nth_error (upd l a x) b = Some y -> (a = b /\ y = x) \/ nth_error l b = Some y.
Proof.
  intros H. destruct (Nat.eq_dec a b) as [<-|N]; [|rewrite nth_error_upd_ne in H by auto; auto]. left. split; [auto|].
  pose proof (nth_error_lt _ _ _ H) as L. rewrite upd_length in L. rewrite nth_error_upd_eq in H by auto. congruence.
Qed.

(** ** Streams *)
(** Changing the owner of a stream, and releasing the one owned before. *)
Lemma life_put s a x o : life s -> wf s -> nth_error (ws_obj s) a = Some x ->
  (forall i, managed o = Some i -> exists b y, b <> a /\ nth_error (ws_obj s) b = Some y /\ managed y = Some i) ->
  life (release (managed x) (set_w s a o)) /\ wf (release (managed x) (set_w s a o)).
Proof.
  intros (L & H) W Hx Ho.
  assert (Keep : forall i, managed o = Some i -> (1 <= owners i (ws_obj s) - (if owns i x then 1 else 0))%nat /\ (i < length (ws_dead s))%nat).
  { intros i Hi. destruct (Ho i Hi) as (b & y & N & Hb & Hy). split.
    - pose proof (owners_upd i (ws_obj s) a None x Hx) as U. cbn [owns] in U.
      assert (P : nth_error (upd (ws_obj s) a None) b = Some y) by (rewrite nth_error_upd_ne by auto; exact Hb).
      apply owns_iff in Hy. pose proof (owners_pos i _ _ _ P Hy). lia.
    - destruct y as [w|]; [|discriminate]. eapply W; eauto. }
  assert (W1 : wf (set_w s a o)).
  { intros b w i Hb Hm. cbn [set_w ws_obj ws_dead] in *. apply upd_inv in Hb. destruct Hb as [(_ & <-)|Hb]; [|eapply W; eauto]. apply (Keep i). exact Hm. }
  assert (C : forall i, owners i (upd (ws_obj s) a o) = (owners i (ws_obj s) - (if owns i x then 1 else 0) + (if owns i o then 1 else 0))%nat).
  { intros i. pose proof (owners_upd i (ws_obj s) a o x Hx) as U. destruct (owns i x) eqn:E; [|lia]. pose proof (owners_pos i _ _ _ Hx E). lia. }
  assert (LS : forall i d, nth_error (ws_dead s) i = Some d -> managed x <> Some i -> d = if Nat.eqb (owners i (upd (ws_obj s) a o)) 0 then 1%nat else 0%nat).
  { intros i d Hi N. rewrite (H i d Hi), C. replace (owns i x) with false; [|symmetry; destruct (owns i x) eqn:E; [apply owns_iff in E; congruence|auto]].
    destruct (owns i o) eqn:E; [|now rewrite Nat.sub_0_r, Nat.add_0_r]. apply owns_iff in E. destruct (Keep i E) as (K & _). destruct (owns i x) eqn:E'; [apply owns_iff in E'; congruence|].
    destruct (owners i (ws_obj s)); [lia|]. rewrite Nat.sub_0_r, Nat.add_1_r. reflexivity. }
  unfold release. destruct (managed x) as [i|] eqn:Ex.
  2: { split; [|exact W1]. split; [exact L|]. cbn [set_w ws_dead ws_obj]. intros i d Hi. apply LS; [auto|discriminate]. }
  pose proof (proj2 (owns_iff i x) Ex) as Ox. pose proof (owners_pos i _ _ _ Hx Ox) as P1.
  destruct (Nat.eqb (owners i (ws_obj (set_w s a o))) 0) eqn:Z.
  - split; [|exact W1 || idtac].
    + split; [cbn; rewrite upd_length; exact L|]. intros j d Hj. apply kill_dead in Hj. destruct Hj as (d0 & Hj & ->). cbn [set_w ws_dead kill ws_obj] in *.
      destruct (Nat.eqb i j) eqn:Eij; [apply Nat.eqb_eq in Eij; subst j|apply Nat.eqb_neq in Eij; apply LS; [auto|congruence]].
      rewrite Z. rewrite (H i d0 Hj). replace (Nat.eqb (owners i (ws_obj s)) 0) with false by (symmetry; apply Nat.eqb_neq; lia). reflexivity.
    + intros b w j Hb Hm. specialize (W1 b w j Hb Hm). cbn in *. rewrite upd_length. exact W1.
  - split; [|exact W1]. split; [exact L|]. cbn [set_w ws_dead ws_obj] in *. intros j d Hj. destruct (Nat.eq_dec i j) as [<-|N]; [|apply LS; [auto|congruence]].
    rewrite Z. rewrite (H i d Hj). replace (Nat.eqb (owners i (ws_obj s)) 0) with false by (symmetry; apply Nat.eqb_neq; lia). reflexivity.
Qed.
Lemma coh_set s a o : coherent s -> (forall w i, o = Some w -> w_managed w = Some i -> w_ptr w = Lib i) -> coherent (set_w s a o).
Proof. intros C H b w i Hb Hm. cbn [set_w ws_obj] in Hb. apply upd_inv in Hb. destruct Hb as [(_ & E)|Hb]; eauto. Qed.
Lemma coh_push s w : coherent s -> (forall i, w_managed w = Some i -> w_ptr w = Lib i) -> coherent (push_w s w).
Proof.
  intros C H b w' i Hb Hm. cbn [push_w ws_obj] in Hb. destruct (Nat.lt_ge_cases b (length (ws_obj s))) as [Lt|Ge].
  - rewrite nth_error_app1 in Hb by auto. eauto.
  - rewrite nth_error_app2 in Hb by auto. destruct (b - length (ws_obj s))%nat as [|k]; [|destruct k; discriminate]. injection Hb as <-. auto.
Qed.
Lemma coh_release s old : coherent s -> coherent (release old s).
Proof. unfold release, kill. destruct old as [i|]; [|auto]. destruct (Nat.eqb _ _); auto. Qed.

(** Two wrappers exchange what they manage: the number of owners does not change. *)
Lemma life_move s b w : life s -> wf s -> get_w s b = Some w -> 
  life (set_w (push_w s w) b (Some (mkW (w_ptr w) None))) /\ wf (set_w (push_w s w) b (Some (mkW (w_ptr w) None))).
Proof.
  intros (L & H) W G. pose proof (get_nth _ _ _ G) as Hb. pose proof (nth_error_lt _ _ _ Hb) as Lb.
  assert (Hb' : nth_error (ws_obj s ++ [Some w]) b = Some (Some w)) by (rewrite nth_error_app1; auto). split.
  - split; [exact L|]. cbn [set_w push_w ws_dead ws_obj]. intros i d Hi. rewrite (H i d Hi).
    pose proof (owners_upd i _ b (Some (mkW (w_ptr w) None)) _ Hb') as U. rewrite owners_app in U. cbn [owns] in U. replace (owners i (upd (ws_obj s ++ [Some w]) b (Some (mkW (w_ptr w) None)))) with (owners i (ws_obj s)); [reflexivity|]. destruct w as [h [j|]]; cbn [owns w_ptr] in *; lia.
  - intros a w' i Ha Hm. cbn [set_w push_w ws_obj ws_dead] in *. apply upd_inv in Ha. destruct Ha as [(_ & E)|Ha]; [injection E as ->; discriminate|].
    destruct (Nat.lt_ge_cases a (length (ws_obj s))) as [Lt|Ge].
    + rewrite nth_error_app1 in Ha by auto. eapply W; eauto.
    + rewrite nth_error_app2 in Ha by auto. destruct (a - length (ws_obj s))%nat as [|k]; [|destruct k; discriminate]. injection Ha as <-. eapply W; eauto.
Qed.

Definition sinv (s : ws) : Prop := life s /\ wf s /\ coherent s.
Lemma nth_of {A} (l : list (option A)) a x : nth_error l a = Some x -> nth a l None = x.
Proof. intros H. eapply nth_error_nth in H. exact H. Qed.

(** Swap the slots of [a] and [b], and then end what [a] had. *)
Lemma upd_upd_owners i l a b wa wb ob : a <> b -> nth_error l a = Some wa -> nth_error l b = Some wb -> owns i ob = false ->
  owners i (upd (upd l b ob) a wb) = (owners i l - (if owns i wa then 1 else 0))%nat /\ ((if owns i wa then 1 else 0) <= owners i l)%nat.
Proof.
  intros N Ha Hb E. pose proof (owners_upd i l b ob wb Hb) as U1. 
  assert (Ha' : nth_error (upd l b ob) a = Some wa) by (rewrite nth_error_upd_ne by auto; exact Ha).
  pose proof (owners_upd i _ a wb wa Ha') as U2. rewrite E in U1.
  assert ((if owns i wa then 1 else 0) <= owners i l)%nat by (destruct (owns i wa) eqn:X; [exact (owners_pos i l a wa Ha X)|lia]). split; [|auto]. lia.
Qed.

Theorem stream_inv o s s' : sinv s -> stream_step o s = Some s' -> sinv s'.
Proof.
  intros (I1 & I2 & I3) E. unfold sinv. destruct o as [q|h|b|b|a b|a b|a]; cbn [stream_step] in E.
  - injection E as <-. destruct (life_new s q (mkW (Lib (length (ws_dead s))) (Some (length (ws_dead s)))) I1 I2 eq_refl) as (A & B).
    split; [exact A|]. split; [exact B|]. apply (coh_push (snd (new_obj s q))); [exact I3|]. intros i X. injection X as <-. reflexivity.
  - injection E as <-. destruct (life_push s (mkW h None) I1 I2 (or_introl eq_refl)) as (A & B). split; [auto|]. split; [auto|]. apply coh_push; [auto|discriminate].
  - destruct (get_w s b) as [w|] eqn:G; [|discriminate]. injection E as <-. destruct (life_push s w I1 I2 (or_intror (ex_intro _ b G))) as (A & B).
    split; [auto|]. split; [auto|]. apply coh_push; [auto|]. intros i X. apply get_nth in G. eauto.
  - destruct (get_w s b) as [w|] eqn:G; [|discriminate]. injection E as <-. destruct (life_move s b w I1 I2 G) as (A & B). split; [auto|]. split; [auto|].
    apply coh_set; [apply coh_push; [auto|intros i X; apply get_nth in G; eauto]|]. intros w' i X Y. injection X as <-. discriminate.
  - destruct (get_w s a) as [wa|] eqn:Ga; [|discriminate]. destruct (get_w s b) as [wb|] eqn:Gb; [|discriminate]. injection E as <-.
    destruct (Nat.eqb a b) eqn:N; [auto|]. apply Nat.eqb_neq in N. apply get_nth in Ga, Gb. unfold put_w. rewrite (nth_of _ _ _ Ga).
    destruct (life_put s a (Some wa) (Some wb) I1 I2 Ga) as (A & B).
    { intros i Hi. exists b, (Some wb). auto. }
    split; [auto|]. split; [auto|]. apply coh_release, coh_set; [auto|]. intros w i X Y. injection X as <-. eauto.
  - destruct (get_w s a) as [wa|] eqn:Ga; [|discriminate]. destruct (get_w s b) as [wb|] eqn:Gb; [|discriminate]. injection E as <-.
    destruct (Nat.eqb a b) eqn:N; [auto|]. apply Nat.eqb_neq in N. apply get_nth in Ga, Gb. cbn zeta. rewrite (nth_of _ _ _ Ga). cbn [managed].
    set (ob := Some (mkW (w_ptr wb) None)). set (s2 := set_w (set_w s b ob) a (Some wb)).
    assert (C3 : coherent s2).
    { apply coh_set; [apply coh_set; [auto|]|]; intros w i X Y; injection X as <-; [discriminate|eauto]. }
    destruct I1 as (L & H).
    assert (U : forall i, owners i (ws_obj s2) = (owners i (ws_obj s) - (if owns i (Some wa) then 1 else 0))%nat /\ ((if owns i (Some wa) then 1 else 0) <= owners i (ws_obj s))%nat).
    { intros i. apply (upd_upd_owners i (ws_obj s) a b (Some wa) (Some wb) ob N Ga Gb). reflexivity. }
    assert (W2 : wf s2).
    { intros c w i Hc Hm. unfold s2 in Hc. cbn [set_w ws_obj ws_dead s2] in *. apply upd_inv in Hc. destruct Hc as [(_ & X)|Hc]; [injection X as ->; eapply I2; eauto|].
      apply upd_inv in Hc. destruct Hc as [(_ & X)|Hc]; [injection X as ->; discriminate|eapply I2; eauto]. }
    assert (LS : forall i d, nth_error (ws_dead s) i = Some d -> w_managed wa <> Some i -> d = if Nat.eqb (owners i (ws_obj s2)) 0 then 1%nat else 0%nat).
    { intros i d Hi NE. destruct (U i) as (U1 & _). rewrite U1, (H i d Hi). destruct (owns i (Some wa)) eqn:X; [apply owns_iff in X; cbn in X; congruence|]. now rewrite Nat.sub_0_r. }
    assert (OW : forall i, w_managed wa = Some i -> (1 <= owners i (ws_obj s))%nat).
    { intros i X. eapply owners_pos; [exact Ga|]. apply owns_iff. exact X. }
    unfold release. destruct (w_managed wa) as [i|] eqn:Ex.
    + destruct (Nat.eqb (owners i (ws_obj s2)) 0) eqn:Z.
      * split; [|split; [|exact C3]].
        -- split; [unfold s2; cbn; rewrite upd_length; exact L|]. intros j d Hj. apply kill_dead in Hj. destruct Hj as (d0 & Hj & ->). change (ws_dead s2) with (ws_dead s) in Hj.
           change (ws_obj (kill i s2)) with (ws_obj s2). destruct (Nat.eqb i j) eqn:Eij; [apply Nat.eqb_eq in Eij; subst j|apply Nat.eqb_neq in Eij; apply LS; [auto|congruence]].
           rewrite Z, (H i d0 Hj). specialize (OW i eq_refl). replace (Nat.eqb (owners i (ws_obj s)) 0) with false by (symmetry; apply Nat.eqb_neq; lia). reflexivity.
        -- intros c w j Hc Hm. specialize (W2 c w j Hc Hm). unfold s2 in *. cbn in *. rewrite upd_length. exact W2.
      * split; [|split; [exact W2|exact C3]]. split; [exact L|]. intros j d Hj. change (ws_dead s2) with (ws_dead s) in Hj. destruct (Nat.eq_dec i j) as [<-|NE]; [|apply LS; [auto|congruence]].
        rewrite Z, (H i d Hj). specialize (OW i eq_refl). replace (Nat.eqb (owners i (ws_obj s)) 0) with false by (symmetry; apply Nat.eqb_neq; lia). reflexivity.
    + split; [|split; [exact W2|exact C3]]. split; [exact L|]. intros j d Hj. apply LS; [exact Hj|discriminate].
  - destruct (get_w s a) as [wa|] eqn:Ga; [|discriminate]. injection E as <-. apply get_nth in Ga. unfold put_w. rewrite (nth_of _ _ _ Ga).
    destruct (life_put s a (Some wa) None I1 I2 Ga) as (A & B); [discriminate|]. split; [auto|]. split; [auto|]. apply coh_release, coh_set; [auto|discriminate].
Qed.
Lemma init_inv : sinv ws_init.
Proof.
  split; [split; [reflexivity|]|split]; cbn.
  - intros [|i] d; discriminate.
  - intros [|a] w i; discriminate.
  - intros [|a] w i; discriminate.
Qed.
Theorem stream_run l : forall s s', sinv s -> wrun stream_step l s = Some s' -> sinv s'.
Proof.
  induction l as [|o l IH]; intros s s' I E; cbn [wrun] in E; [congruence|]. destruct (stream_step o s) as [s1|] eqn:E1; [|discriminate].
  eapply IH; [|exact E]. eapply stream_inv; eauto.
Qed.

(** ** Queues: an object has at most one owner. *)
Definition qlife (s : ws) : Prop := life s /\ forall i, (owners i (ws_obj s) <= 1)%nat.
Definition qinv (s : ws) : Prop := qlife s /\ wf s.

Lemma sole s i a b x y : qlife s -> nth_error (ws_obj s) a = Some x -> nth_error (ws_obj s) b = Some y -> managed x = Some i -> managed y = Some i -> a = b.
Proof.
  intros (_ & H) Ha Hb Hx Hy. destruct (Nat.eq_dec a b) as [|N]; [auto|exfalso]. specialize (H i).
  pose proof (owners_upd i (ws_obj s) a None x Ha) as U. apply owns_iff in Hx, Hy. rewrite Hx in U. cbn [owns] in U.
  assert (P : nth_error (upd (ws_obj s) a None) b = Some y) by (rewrite nth_error_upd_ne by auto; exact Hb). pose proof (owners_pos i _ _ _ P Hy). lia.
Qed.
(** Change a wrapper to one that manages nothing, or a fresh object, and end what it had. *)
Lemma q_reset s a wa s1 o : qinv s -> nth_error (ws_obj s) a = Some (Some wa) ->
  (s1 = s /\ managed o = None \/ exists q, s1 = snd (new_obj s q) /\ managed o = Some (length (ws_dead s))) ->
  qinv (set_w (reset (w_managed wa) s1) a o).
Proof.
  intros (((L & H) & SG) & W) Ha Ho.
  set (s2 := set_w (reset (w_managed wa) s1) a o).
  assert (Eo : ws_obj s2 = upd (ws_obj s) a o).
  { unfold s2, set_w, reset, kill. cbn [ws_obj]. destruct Ho as [(-> & _)|(q & -> & _)]; destruct (w_managed wa); reflexivity. }
  assert (U : forall i, (owners i (ws_obj s2) + (if owns i (Some wa) then 1 else 0) = owners i (ws_obj s) + (if owns i o then 1 else 0))%nat) by (intros i; rewrite Eo; apply owners_upd; exact Ha).
  assert (F : forall i, (length (ws_dead s) <= i)%nat -> owners i (ws_obj s) = 0%nat) by (intros i; apply no_owner; exact W).
  assert (LD : length (ws_dead s2) = length (ws_dead s1)) by (unfold s2, set_w, reset, kill; cbn [ws_dead]; destruct (w_managed wa); cbn [ws_dead]; rewrite ?upd_length; reflexivity).
  assert (NO : forall i, owns i o = true -> i = length (ws_dead s) /\ length (ws_dead s1) = S (length (ws_dead s))).
  { intros i X. apply owns_iff in X. destruct Ho as [(_ & Y)|(q & -> & Y)]; [congruence|]. split; [congruence|]. cbn. rewrite app_length. cbn. lia. }
  assert (L1 : (length (ws_dead s) <= length (ws_dead s1))%nat) by (destruct Ho as [(-> & _)|(q & -> & _)]; [lia|cbn; rewrite app_length; lia]).
  split; [split; [split|]|].
  - rewrite LD. unfold s2, set_w, reset, kill. destruct Ho as [(-> & _)|(q & -> & _)]; destruct (w_managed wa); cbn; rewrite ?app_length; cbn; lia.
  - intros i d Hi. assert (D : exists d0, nth_error (ws_dead s1) i = Some d0 /\ d = if owns i (Some wa) then S d0 else d0).
    { unfold s2, set_w, reset in Hi. cbn [ws_dead] in Hi. destruct wa as [h [j|]]; cbn [w_managed owns] in *; [|exists d; auto].
      apply kill_dead in Hi. destruct Hi as (d0 & H0 & ->). exists d0. split; [auto|]. rewrite (Nat.eqb_sym j i). reflexivity. }
    destruct D as (d0 & D0 & ->). specialize (U i). destruct (Nat.lt_ge_cases i (length (ws_dead s))) as [Lt|Ge].
    + assert (D1 : nth_error (ws_dead s) i = Some d0) by (destruct Ho as [(-> & _)|(q & -> & _)]; [auto|cbn in D0; rewrite nth_error_app1 in D0; auto]).
      assert (owns i o = false) as X by (destruct (owns i o) eqn:X; [destruct (NO i X); lia|auto]). rewrite X in U. rewrite (H i d0 D1). specialize (SG i).
      destruct (owns i (Some wa)) eqn:Y.
      * pose proof (owners_pos i _ _ _ Ha Y). replace (owners i (ws_obj s)) with 1%nat by lia. replace (owners i (ws_obj s2)) with 0%nat by lia. reflexivity.
      * replace (owners i (ws_obj s2)) with (owners i (ws_obj s)) by lia. reflexivity.
    + destruct Ho as [(-> & X)|(q & -> & X)]; [apply nth_error_lt in D0; lia|]. cbn [new_obj snd ws_dead] in D0. rewrite nth_error_app2 in D0 by auto.
      destruct (i - length (ws_dead s))%nat as [|k] eqn:K; [|destruct k; discriminate]. injection D0 as <-. assert (i = length (ws_dead s)) by lia. subst i.
      apply owns_iff in X. rewrite X, (F _ Ge) in U. destruct (owns (length (ws_dead s)) (Some wa)) eqn:Y; [pose proof (owners_pos _ _ _ _ Ha Y); rewrite (F _ Ge) in *; lia|].
      replace (owners (length (ws_dead s)) (ws_obj s2)) with 1%nat by lia. reflexivity.
  - intros i. specialize (U i). specialize (SG i). destruct (owns i o) eqn:X; [|destruct (owns i (Some wa)); lia]. destruct (NO i X) as (-> & _). rewrite (F _ (le_n _)) in U.
    destruct (owns (length (ws_dead s)) (Some wa)); lia.
  - intros b w i Hb Hm. rewrite Eo in Hb. apply upd_inv in Hb. rewrite LD. destruct Hb as [(_ & X)|Hb].
    + assert (Y : owns i o = true) by (apply owns_iff; rewrite <- X; exact Hm). destruct (NO i Y). lia.
    + specialize (W b w i Hb Hm). lia.
Qed.

Theorem queue_inv o s s' : qinv s -> queue_step o s = Some s' -> qinv s'.
Proof.
  intros I E. pose proof I as ((I1 & SG) & W). destruct o as [q|h|b|b|a b|a b|a]; cbn [queue_step] in E.
  - injection E as <-. destruct (life_new s q (mkW (Lib (length (ws_dead s))) (Some (length (ws_dead s)))) I1 W eq_refl) as (A & B). split; [|exact B]. split; [exact A|].
    intros i. cbn [push_w new_obj snd ws_obj]. rewrite owners_app. specialize (SG i). destruct (owns i _) eqn:X; [|lia]. apply owns_iff in X. cbn in X. injection X as <-.
    rewrite (no_owner s _ W) by lia. lia.
  - injection E as <-. destruct (life_push s (mkW h None) I1 W (or_introl eq_refl)) as (A & B). split; [|exact B]. split; [exact A|]. intros i. cbn [push_w ws_obj].
    rewrite owners_app. cbn [owns]. rewrite Nat.add_0_r. apply SG.
  - destruct (get_w s b) as [[h [j|]]|]; [| |discriminate]; injection E as <-.
    + destruct (life_new s (nth j (ws_id s) 0) (mkW (Lib (length (ws_dead s))) (Some (length (ws_dead s)))) I1 W eq_refl) as (A & B). split; [|exact B]. split; [exact A|].
      intros i. cbn [push_w new_obj snd ws_obj]. rewrite owners_app. specialize (SG i). destruct (owns i _) eqn:X; [|lia]. apply owns_iff in X. cbn in X. injection X as <-.
      rewrite (no_owner s _ W) by lia. lia.
    + destruct (life_push s (mkW h None) I1 W (or_introl eq_refl)) as (A & B). split; [|exact B]. split; [exact A|]. intros i. cbn [push_w ws_obj].
      rewrite owners_app. cbn [owns]. rewrite Nat.add_0_r. apply SG.
  - destruct (get_w s b) as [w|] eqn:G; [|discriminate]. injection E as <-. pose proof (get_nth _ _ _ G) as Hb. pose proof (nth_error_lt _ _ _ Hb) as Lb.
    set (w' := match w_managed w with Some i => mkW (Lib i) (Some i) | None => w end).
    assert (Ew : forall i, owns i (Some w') = owns i (Some w)) by (intros i; unfold w'; destruct w as [h [j|]]; reflexivity).
    assert (Hb' : nth_error (ws_obj s ++ [Some w']) b = Some (Some w)) by (rewrite nth_error_app1; auto).
    assert (U : forall i, owners i (upd (ws_obj s ++ [Some w']) b (Some (mkW (w_ptr w) None))) = owners i (ws_obj s)).
    { intros i. pose proof (owners_upd i _ b (Some (mkW (w_ptr w) None)) _ Hb') as U. rewrite owners_app, Ew in U. destruct w as [h [j|]]; cbn [owns w_ptr] in *; lia. }
    split; [split; [split; [exact (proj1 I1)|]|]|]; cbn [set_w push_w ws_obj ws_dead].
    + intros i d Hi. rewrite U. exact (proj2 I1 i d Hi).
    + intros i. rewrite U. apply SG.
    + intros c wc i Hc Hm. cbn [set_w push_w ws_obj ws_dead] in *. apply upd_inv in Hc. destruct Hc as [(_ & X)|Hc]; [injection X as ->; discriminate|].
      destruct (Nat.lt_ge_cases c (length (ws_obj s))) as [Lt|Ge].
      * rewrite nth_error_app1 in Hc by auto. eapply W; eauto.
      * rewrite nth_error_app2 in Hc by auto. destruct (c - length (ws_obj s))%nat as [|k]; [|destruct k; discriminate]. injection Hc as <-.
        eapply (W b w i Hb). unfold w' in Hm. destruct (w_managed w) eqn:Qm; [exact Hm|congruence].
  - destruct (get_w s a) as [wa|] eqn:Ga; [|discriminate]. destruct (get_w s b) as [[h m]|] eqn:Gb; [|discriminate].
    destruct (Nat.eqb a b) eqn:N; [congruence|]. apply get_nth in Ga. destruct m as [j|]; injection E as <-.
    + apply (q_reset s a wa (snd (new_obj s (nth j (ws_id s) 0))) (Some (mkW (Lib (length (ws_dead s))) (Some (length (ws_dead s)))))); [auto|auto|]. right. eauto.
    + assert (U : forall i, owners i (upd (ws_obj s) a (Some (mkW h (w_managed wa)))) = owners i (ws_obj s)).
      { intros i. pose proof (owners_upd i _ a (Some (mkW h (w_managed wa))) _ Ga) as U. destruct wa as [hh [k|]]; cbn [owns w_managed] in *; lia. }
      split; [split; [split; [exact (proj1 I1)|]|]|]; cbn [set_w ws_obj ws_dead].
      * intros i d Hi. rewrite U. exact (proj2 I1 i d Hi).
      * intros i. rewrite U. apply SG.
      * intros c wc i Hc Hm. cbn [set_w ws_obj ws_dead] in *. apply upd_inv in Hc. destruct Hc as [(_ & X)|Hc]; [injection X as ->; eapply W; eauto|eapply W; eauto].
  - destruct (get_w s a) as [wa|] eqn:Ga; [|discriminate]. destruct (get_w s b) as [wb|] eqn:Gb; [|discriminate].
    destruct (Nat.eqb a b) eqn:N; [congruence|]. apply Nat.eqb_neq in N. injection E as <-. apply get_nth in Ga, Gb.
    set (w' := match w_managed wb with Some i => mkW (Lib i) (Some i) | None => wb end).
    assert (Ew : forall i, owns i (Some w') = owns i (Some wb)) by (intros i; unfold w'; destruct wb as [h [j|]]; reflexivity).
    pose proof (q_reset s a wa s None I Ga (or_introl (conj eq_refl eq_refl))) as ((J1 & J2) & J3).
    set (s1 := reset (w_managed wa) s) in *. assert (Es : ws_obj s1 = ws_obj s) by (unfold s1, reset, kill; destruct (w_managed wa); reflexivity).
    set (sa := set_w s1 a None) in *. set (s2 := set_w (set_w s1 b (Some (mkW (w_ptr wb) None))) a (Some w')).
    assert (U : forall i, owners i (ws_obj s2) = owners i (ws_obj sa)).
    { intros i. unfold s2, sa, set_w. cbn [ws_obj]. rewrite Es.
      pose proof (owners_upd i _ a None _ Ga) as U1. replace (owns i None) with false in U1 by reflexivity.
      pose proof (owners_upd i (ws_obj s) b (Some (mkW (w_ptr wb) None)) _ Gb) as U2.
      assert (Ga' : nth_error (upd (ws_obj s) b (Some (mkW (w_ptr wb) None))) a = Some (Some wa)) by (rewrite nth_error_upd_ne by auto; exact Ga).
      pose proof (owners_upd i _ a (Some w') _ Ga') as U3. rewrite Ew in U3.
      replace (owns i (Some (mkW (w_ptr wb) None))) with false in U2 by reflexivity. lia. }
    split; [split; [split; [exact (proj1 J1)|]|]|].
    + intros i d Hi. rewrite U. exact (proj2 J1 i d Hi).
    + intros i. rewrite U. apply J2.
    + intros c wc i Hc Hm. change (ws_dead s2) with (ws_dead sa). unfold s2 in Hc. cbn [set_w ws_obj] in Hc. rewrite Es in Hc.
      assert (K : forall e we, e <> a -> nth_error (ws_obj s) e = Some (Some we) -> w_managed we = Some i -> (i < length (ws_dead sa))%nat).
      { intros e we Ne He Hme. apply (J3 e we i); [|exact Hme]. unfold sa. cbn [set_w ws_obj]. rewrite Es, nth_error_upd_ne by auto. exact He. }
      destruct (Nat.eq_dec a c) as [<-|Nc].
      * rewrite nth_error_upd_eq in Hc by (rewrite upd_length; eapply nth_error_lt; eauto). injection Hc as <-.
        apply (K b wb); [auto|exact Gb|]. unfold w' in Hm. destruct (w_managed wb) eqn:Qm; [exact Hm|congruence].
      * rewrite nth_error_upd_ne in Hc by auto. apply upd_inv in Hc. destruct Hc as [(_ & X)|Hc]; [injection X as ->; discriminate|]. apply (K c wc); auto.
  - destruct (get_w s a) as [wa|] eqn:Ga; [|discriminate]. injection E as <-. apply get_nth in Ga. apply (q_reset s a wa s None I Ga); auto.
Qed.
Lemma qinit_inv : qinv ws_init.
Proof. destruct init_inv as (A & B & _). split; [split; [exact A|]|exact B]. intros i. cbn. lia. Qed.
Theorem queue_run l : forall s s', qinv s -> wrun queue_step l s = Some s' -> qinv s'.
Proof.
  induction l as [|o l IH]; intros s s' I E; cbn [wrun] in E; [congruence|]. destruct (queue_step o s) as [s1|] eqn:E1; [|discriminate].
  eapply IH; [|exact E]. eapply queue_inv; eauto.
Qed.

(** A new copy is the last wrapper. *)
Definition last_w (s : ws) : option wrap := last (ws_obj s) None.
Lemma last_push s w : last_w (push_w s w) = Some w.
Proof. unfold last_w, push_w. cbn [ws_obj]. apply last_last. Qed.

Theorem queue_copy ext l s b s' w w' : wrun queue_step l ws_init = Some s -> get_w s b = Some w ->
  (forall i, w_managed w = Some i -> w_ptr w = Lib i) -> queue_step (WCopy b) s = Some s' -> last_w s' = Some w' ->
  denotes ext s' (w_ptr w') = denotes ext s (w_ptr w).
Proof.
  intros R G C E Lw. pose proof (queue_run _ _ _ qinit_inv R) as (((L & H) & _) & W). cbn [queue_step] in E. rewrite G in E. destruct w as [h [j|]].
  - injection E as <-. change (mkWs (ws_obj s) (ws_id s ++ [nth j (ws_id s) 0]) (ws_dead s ++ [0%nat])) with (snd (new_obj s (nth j (ws_id s) 0))) in Lw. rewrite last_push in Lw. injection Lw as <-. cbn [w_ptr]. specialize (C j eq_refl). cbn [w_ptr] in C. subst h.
    cbn [push_w new_obj snd denotes ws_id ws_dead].
    rewrite (nth_error_app2 (ws_id s)), (nth_error_app2 (ws_dead s)) by lia. replace (length (ws_id s) - length (ws_dead s))%nat with 0%nat by lia. rewrite Nat.sub_diag. cbn [nth_error].
    pose proof (get_nth _ _ _ G) as Hb. pose proof (W b _ j Hb eq_refl) as Lj.
    destruct (nth_error (ws_id s) j) as [q|] eqn:Eq; [|apply nth_error_None in Eq; lia].
    destruct (nth_error (ws_dead s) j) as [d|] eqn:Ed; [|apply nth_error_None in Ed; lia].
    pose proof (H j d Ed) as D. pose proof (owners_pos j _ b _ Hb ltac:(cbn; apply Nat.eqb_refl)) as P.
    replace (Nat.eqb (owners j (ws_obj s)) 0) with false in D by (symmetry; apply Nat.eqb_neq; lia). subst d. cbn [Nat.eqb]. rewrite (nth_error_nth _ _ 0 Eq). replace (length (ws_dead s) - length (ws_id s))%nat with 0%nat by lia. reflexivity.
  - injection E as <-. rewrite last_push in Lw. injection Lw as <-. reflexivity.
Qed.

Theorem stream_copy ext l s b s' w w' : wrun stream_step l ws_init = Some s -> get_w s b = Some w ->
  stream_step (WCopy b) s = Some s' -> last_w s' = Some w' -> denotes ext s' (w_ptr w') = denotes ext s (w_ptr w).
Proof.
  intros R G E Lw. cbn [stream_step] in E. rewrite G in E. injection E as <-. rewrite last_push in Lw. injection Lw as <-. reflexivity.
Qed.

(** Move assignment of queue wrappers. *)
Lemma reset_denotes ext old s h : (forall i, old = Some i -> h <> Lib i) -> denotes ext (reset old s) h = denotes ext s h.
Proof.
  intros H. destruct old as [i|]; [|reflexivity]. specialize (H i eq_refl). destruct h as [j|n]; [|reflexivity].
  cbn [reset kill denotes ws_id ws_dead]. rewrite nth_error_upd_ne by congruence. reflexivity.
Qed.
Lemma queue_move_assign ext l s a b wa wb s' w' : wrun queue_step l ws_init = Some s -> get_w s a = Some wa -> get_w s b = Some wb ->
  (forall i, w_managed wb = Some i -> w_ptr wb = Lib i) ->
  (w_managed wb = None -> forall i, w_managed wa = Some i -> w_ptr wb <> Lib i) ->
  queue_step (WMoveAssign a b) s = Some s' -> get_w s' a = Some w' ->
  denotes ext s' (w_ptr w') = denotes ext s (w_ptr wb).
Proof.
  intros R Ga Gb C N E G'. destruct (queue_run l _ _ qinit_inv R) as (Q & _).
  cbn [queue_step] in E. rewrite Ga, Gb in E. destruct (Nat.eqb_spec a b) as [->|NE].
  { injection E as <-. congruence. }
  injection E as <-.
  assert (W : w' = match w_managed wb with Some i => mkW (Lib i) (Some i) | None => wb end).
  { apply get_nth in G'. cbn [set_w ws_obj] in G'. rewrite nth_error_upd_eq in G'; [congruence|].
    rewrite upd_length. apply get_nth in Ga. apply nth_error_lt in Ga. destruct (w_managed wa); exact Ga. }
  assert (P : w_ptr w' = w_ptr wb).
  { subst w'. destruct (w_managed wb) as [i|] eqn:M; [|reflexivity]. rewrite (C i eq_refl). reflexivity. }
  rewrite P. transitivity (denotes ext (reset (w_managed wa) s) (w_ptr wb)); [reflexivity|].
  apply reset_denotes. intros i Hi Hp. destruct (w_managed wb) as [j|] eqn:M; [|exact (N eq_refl i Hi Hp)].
  rewrite (C j eq_refl) in Hp. injection Hp as ->. apply NE.
  apply (sole s i a b (Some wa) (Some wb) Q (get_nth _ _ _ Ga) (get_nth _ _ _ Gb) Hi M).
Qed.
