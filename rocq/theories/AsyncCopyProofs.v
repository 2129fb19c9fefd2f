(** The functions of copy.ipp on a stream do what the models of Copy.v and EdmCopy.v say. *)
From Verif Require Import Async BaseLemmas AsyncProofs EdmBuffer EdmCopy.

Section Sim.
  Variable fl : bool.

  Lemma srun_bind {A B} (p : prog A) (f : A -> prog B) : forall s,
    srun fl (pbind p f) s = match srun fl p s with (Ret a, s') => srun fl (f a) s' | (Throw e, s') => (Throw e, s') | (UB, s') => (UB, s') end.
  Proof.
    induction p as [v|e| |o kf IHf k IHk|k IH|e k IH|e k IH|e k IH|bs k IH|x k IH|x k IH]; intros s; cbn [pbind srun]; auto.
    - destruct (issue o (s_mem s)) as [[|]| |]; auto. destruct (aexec o (s_mem s, s_loc s)) as [[m l]|]; auto.
    - destruct (nth_error (s_evs s) e) as [o|]; auto. destruct (negb (eo_alive o)); auto. destruct (eo_null o); auto.
    - destruct (nth_error (s_evs s) e) as [o|]; auto. destruct (negb (eo_alive o)); auto.
    - destruct (nth_error (s_evs s) e) as [o|]; auto. destruct (negb (eo_alive o)); auto. destruct (eo_null o); auto. destruct fl; auto.
    - destruct (nth_error (s_loc s) x) as [[|]|]; auto; destruct (nth_error (s_last s) x); auto. destruct (Nat.leb n (s_done s)); auto.
    - destruct (nth_error (s_loc s) x) as [[|]|]; auto; destruct (nth_error (s_last s) x); auto. destruct (Nat.leb n (s_done s)); auto.
  Qed.
  Lemma srun_finally {A} (p : prog A) (c : prog A -> prog A) : forall s,
    srun fl (pfinally p c) s = match srun fl p s with (Ret a, s') => srun fl (c (PRet a)) s' | (Throw e, s') => srun fl (c (PThrow e)) s' | (UB, s') => (UB, s') end.
  Proof.
    induction p as [v|e| |o kf IHf k IHk|k IH|e k IH|e k IH|e k IH|bs k IH|x k IH|x k IH]; intros s; cbn [pfinally srun]; auto.
    - destruct (issue o (s_mem s)) as [[|]| |]; auto. destruct (aexec o (s_mem s, s_loc s)) as [[m l]|]; auto.
    - destruct (nth_error (s_evs s) e) as [o|]; auto. destruct (negb (eo_alive o)); auto. destruct (eo_null o); auto.
    - destruct (nth_error (s_evs s) e) as [o|]; auto. destruct (negb (eo_alive o)); auto.
    - destruct (nth_error (s_evs s) e) as [o|]; auto. destruct (negb (eo_alive o)); auto. destruct (eo_null o); auto. destruct fl; auto.
    - destruct (nth_error (s_loc s) x) as [[|]|]; auto; destruct (nth_error (s_last s) x); auto. destruct (Nat.leb n (s_done s)); auto.
    - destruct (nth_error (s_loc s) x) as [[|]|]; auto; destruct (nth_error (s_last s) x); auto. destruct (Nat.leb n (s_done s)); auto.
  Qed.

  (** ** What a function may do to the state of the host: create local variables and
      events, all of them gone at the end. *)
  Definition gone (o : evobj) : Prop := eo_null o = true /\ eo_alive o = false /\ eo_destroyed o = 1%nat.
  Definition wfs (s : sstate) : Prop := length (s_last s) = length (s_loc s) /\ (s_done s <= s_pos s)%nat.
  Definition quiet (s : sstate) : Prop := s_done s = s_pos s.
  Definition ext (s s' : sstate) : Prop :=
    (exists l, s_loc s' = s_loc s ++ l /\ Forall (eq None) l) /\ (exists n, s_last s' = s_last s ++ n) /\
    (exists e, s_evs s' = s_evs s ++ e /\ Forall gone e) /\ (s_done s <= s_done s')%nat /\ (s_pos s <= s_pos s')%nat.
  Lemma ext_refl s : ext s s.
  Proof.
    split; [exists []; rewrite app_nil_r; auto|]. split; [exists []; now rewrite app_nil_r|]. split; [exists []; rewrite app_nil_r; auto|lia].
  Qed.
  Lemma ext_trans s1 s2 s3 : ext s1 s2 -> ext s2 s3 -> ext s1 s3.
  Proof.
    intros ((l1 & A1 & B1) & (n1 & C1) & (e1 & D1 & E1) & F1 & G1) ((l2 & A2 & B2) & (n2 & C2) & (e2 & D2 & E2) & F2 & G2).
    split; [exists (l1 ++ l2); rewrite A2, A1, app_assoc; split; [auto|apply Forall_app; auto]|].
    split; [exists (n1 ++ n2); now rewrite C2, C1, app_assoc|].
    split; [exists (e1 ++ e2); rewrite D2, D1, app_assoc; split; [auto|apply Forall_app; auto]|lia].
  Qed.

  Definition omap {A B} (f : A -> B) (o : outcome A) : outcome B := match o with Ret a => Ret (f a) | Throw e => Throw e | UB => UB end.
  (** [fly r]: something may be in flight if the result is [r]. *)
  Definition sim {A B} (pi : A -> B) (fly : outcome A -> bool) (p : prog A) (f : cmem -> cm B) : Prop :=
    forall s, wfs s -> fst (f (s_mem s)) <> UB ->
    exists r s', srun fl p s = (r, s') /\ omap pi r = fst (f (s_mem s)) /\ s_mem s' = snd (f (s_mem s)) /\ ext s s' /\ wfs s' /\
      (fly r = false -> quiet s -> quiet s').
  Definition idA {A} (a : A) : A := a.
  Definition none {A} (r : outcome A) : bool := false.
  Definition all {A} (r : outcome A) : bool := true.
  Definition ret_only {A} (r : outcome A) : bool := match r with Ret _ => true | _ => false end.
  Definition ret_true (r : outcome bool) : bool := match r with Ret b => b | _ => false end.
  Definition fly_b (th : bool) (r : outcome bool) : bool := match r with Ret b => b | _ => th end.

  Lemma sim_ret {A B} (pi : A -> B) fly a b : pi a = b -> sim pi fly (PRet a) (fun m => (Ret b, m)).
  Proof. intros E s W _. exists (Ret a), s. cbn. rewrite E. repeat split; auto; try exact (proj1 W); try exact (proj2 W); apply ext_refl. Qed.
  Lemma sim_throw {A B} (pi : A -> B) fly e : sim pi fly (PThrow e) (fun m => (Throw e, m)).
  Proof. intros s W _. exists (Throw e), s. cbn. repeat split; auto; try exact (proj1 W); try exact (proj2 W); apply ext_refl. Qed.
  Lemma sim_ub {A B} (pi : A -> B) fly p : sim pi fly p (fun m => (UB, m)).
  Proof. intros s W H. cbn in H. congruence. Qed.
  Lemma sim_ext {A B} (pi : A -> B) fly p f g : (forall m, f m = g m) -> sim pi fly p f -> sim pi fly p g.
  Proof. intros E H s W NU. rewrite <- E in *. apply H; auto. Qed.
  Lemma sim_fly {A B} (pi : A -> B) (fly fly' : outcome A -> bool) p f : (forall r, fly' r = false -> fly r = false) -> sim pi fly p f -> sim pi fly' p f.
  Proof. intros E H s W NU. destruct (H s W NU) as (r & s' & H1 & H2 & H3 & H4 & H5 & H6). exists r, s'. repeat split; auto; try apply H4; try apply H5. Qed.

  (** Composition. *)
  Lemma sim_bind_gen {A B C D} (pi : A -> B) (pi' : C -> D) fly (fly' : outcome C -> bool) p f (k : A -> prog C) g :
    sim pi fly p f -> (forall a, sim pi' fly' (k a) (g (pi a))) ->
    (forall e, fly' (Throw e) = false -> fly (Throw e) = false) -> (forall a r, fly' r = false -> fly (Ret a) = false) ->
    sim pi' fly' (pbind p k) (fun m => cbind (f m) g).
  Proof.
    intros H K F1 F2 s W NU. unfold cbind in *.
    assert (NU1 : fst (f (s_mem s)) <> UB) by (intros E; apply NU; destruct (f (s_mem s)) as [[| |] m]; cbn in *; congruence).
    destruct (H s W NU1) as (r & s1 & H1 & H2 & H3 & H4 & H5 & H6). rewrite srun_bind, H1.
    destruct (f (s_mem s)) as [r' m'] eqn:Ef. cbn [fst snd] in *. destruct r as [a|e|]; cbn [omap] in H2; subst r'.
    - rewrite <- H3 in NU. destruct (K a s1 H5 NU) as (r2 & s2 & G1 & G2 & G3 & G4 & G5 & G6). rewrite <- H3.
      exists r2, s2. split; [auto|]. split; [auto|]. split; [auto|]. split; [eapply ext_trans; eauto|]. split; [auto|]. intros E Q. apply G6; [auto|].
      apply H6; [eapply F2; eauto|auto].
    - exists (Throw e), s1. cbn. repeat (split; [auto|]). intros E Q. apply H6; auto.
    - congruence.
  Qed.
  (** After a function that leaves nothing in flight. *)
  Lemma sim_bind {A B C D} (pi : A -> B) (pi' : C -> D) fly p f (k : A -> prog C) g :
    sim pi none p f -> (forall a, sim pi' fly (k a) (g (pi a))) -> sim pi' fly (pbind p k) (fun m => cbind (f m) g).
  Proof. intros H K. eapply sim_bind_gen; eauto. Qed.
  Lemma sim_bind_all {A B C D} (pi : A -> B) (pi' : C -> D) fly p f (k : A -> prog C) g :
    sim pi fly p f -> (forall a, sim pi' all (k a) (g (pi a))) -> sim pi' all (pbind p k) (fun m => cbind (f m) g).
  Proof. intros H K. eapply sim_bind_gen; eauto; discriminate. Qed.

  (** ** Single operations *)
  Notation op_fun := sync_op.
  Lemma issue_ok o m : fst (op_fun o m) <> UB ->
    (issue o m = Ret false /\ op_fun o m = (Ret tt, m)) \/
    (exists m', issue o m = Ret true /\ op_fun o m = (Ret tt, m') /\ forall l, aexec o (m, l) = Some (m', l)) \/
    (issue o m = Throw runtime_error /\ op_fun o m = (Throw runtime_error, m)).
  Proof.
    intros NU. destruct o as [k n src dst|k n src x|k n x dst|n dst v]; cbn [sync_op issue aexec] in *; try (cbn in NU; congruence).
    - unfold do_copy in *. destruct (n =? 0); [left; auto|]. destruct ((src =? 0) || (dst =? 0)); [cbn in NU; congruence|].
      destruct (get_bytes m src (Z.to_nat n)) as [bs|]; [|cbn in NU; congruence]. destruct (get_bytes m dst (Z.to_nat n)); [|cbn in NU; congruence].
      destruct ((src <? dst + n) && (dst <? src + n)); [cbn in NU; congruence|].
      destruct (kind_check m k (m_dev m src) (m_dev m dst)); [right; left|right; right; auto]. eexists. cbn. eauto.
    - unfold do_memset in *. destruct (n =? 0); [left; auto|]. destruct (dst =? 0); [cbn in NU; congruence|].
      destruct (get_bytes m dst (Z.to_nat n)) as [bs|]; [|cbn in NU; congruence]. right; left. eexists. cbn. eauto.
  Qed.

  Lemma touch_plain o n l m m' l0 : aexec o (m, l0) = Some (m', l0) -> op_fun o m = (Ret tt, m') -> touch o n l = l.
  Proof. intros _ H. destruct o; cbn in *; auto; congruence. Qed.

  Lemma sim_issue o : sim idA ret_only (p_issue o) (op_fun o).
  Proof.
    intros s W NU. unfold p_issue. cbn [srun]. destruct (issue_ok o (s_mem s) NU) as [(E1 & E2)|[(m' & E1 & E2 & E3)|(E1 & E2)]]; rewrite E1, E2.
    - exists (Ret tt), s. cbn. repeat split; auto; try apply W; apply ext_refl.
    - rewrite E3. rewrite (touch_plain o _ _ _ _ _ (E3 (s_loc s)) E2).
      exists (Ret tt), (mkS m' (s_loc s) (s_last s) (S (s_pos s)) (s_done s) (s_evs s)). cbn. destruct W as (W1 & W2).
      repeat split; auto; cbn; try lia; try discriminate.
      + exists []. rewrite app_nil_r. auto.
      + exists []. now rewrite app_nil_r.
      + exists []. rewrite app_nil_r. auto.
    - exists (Throw runtime_error), s. cbn. repeat split; auto; try apply W; apply ext_refl.
  Qed.

  Lemma nth_app_mid {A} (l : list A) x r : nth_error (l ++ x :: r) (length l) = Some x.
  Proof. rewrite nth_error_app2, Nat.sub_diag by lia. reflexivity. Qed.
  Lemma upd_app_mid {A} (l : list A) x y r : upd (l ++ x :: r) (length l) y = l ++ y :: r.
  Proof. induction l as [|a l IH]; cbn; [auto|]. now rewrite IH. Qed.
  Lemma nth_app_mid' {A} (l : list A) x r n : length l = n -> nth_error (l ++ x :: r) n = Some x.
  Proof. intros <-. apply nth_app_mid. Qed.
  Lemma upd_app_mid' {A} (l : list A) x y r n : length l = n -> upd (l ++ x :: r) n y = l ++ y :: r.
  Proof. intros <-. apply upd_app_mid. Qed.

  (** create_event()->wait() *)
  Lemma srun_sync {A} (p : prog A) s : wfs s ->
    srun fl (p_sync p) s = srun fl p (mkS (s_mem s) (s_loc s) (s_last s) (s_pos s) (s_pos s) (s_evs s ++ [mkEO (s_pos s) true 1 false])).
  Proof.
    intros (_ & W). unfold p_sync. cbn [srun s_evs s_done s_mem s_loc s_last s_pos].
    rewrite nth_app_mid. cbn [eo_alive negb eo_null srun s_evs s_done s_mem s_loc s_last s_pos].
    rewrite upd_app_mid. rewrite nth_app_mid. cbn [ev_ignore eo_null eo_alive negb eo_pos eo_destroyed]. rewrite upd_app_mid. cbn [ev_dead eo_pos eo_null eo_destroyed].
    rewrite Nat.max_r by auto. reflexivity.
  Qed.

  Lemma sim_copy_out k n src : sim idA none (p_copy_out k n src) (do_copy_out k n src).
  Proof.
    intros s W NU. unfold p_copy_out. cbn [srun]. unfold issue. cbn [s_mem].
    pose proof W as (W1 & W2). unfold do_copy_out in *. destruct (src =? 0) eqn:Es; [cbn in NU; congruence|].
    destruct (get_bytes (s_mem s) src (Z.to_nat n)) as [bs|] eqn:Eb; [|cbn in NU; congruence].
    destruct (kind_check (s_mem s) k (m_dev (s_mem s) src) false) eqn:Ek.
    - cbn [aexec s_mem s_loc]. rewrite nth_app_mid. unfold do_copy_out. rewrite Es, Eb, Ek. rewrite upd_app_mid. cbn [touch s_last s_pos].
      rewrite (upd_app_mid' (s_last s)) by auto. rewrite srun_sync by (split; cbn; rewrite ?app_length; cbn; lia).
      cbn [srun s_mem s_loc s_last s_pos s_done s_evs]. rewrite nth_app_mid. rewrite (nth_app_mid' (s_last s)) by auto.
      rewrite Nat.leb_refl. rewrite upd_app_mid.
      eexists. eexists. split; [reflexivity|]. cbn. repeat split; cbn; rewrite ?app_length; cbn; try lia.
      + exists [None]. auto.
      + exists [S (s_pos s)]. auto.
      + eexists. split; [reflexivity|]. repeat constructor.
    - cbn [srun s_mem s_loc s_last s_pos s_done s_evs]. rewrite nth_app_mid. rewrite (nth_app_mid' (s_last s)) by auto. cbn [Nat.leb]. rewrite upd_app_mid.
      eexists. eexists. split; [reflexivity|]. cbn. repeat split; cbn; rewrite ?app_length; cbn; try lia; auto.
      + exists [None]. auto.
      + exists [0%nat]. auto.
      + exists []. rewrite app_nil_r. auto.
  Qed.

  Lemma copy_in_ok k bs dst m : fst (do_copy_in k bs dst m) <> UB -> let n := Z.of_nat (length bs) in
    (bs = [] /\ (forall x, issue (AOIn k n x dst) m = Ret false) /\ do_copy_in k bs dst m = (Ret tt, m)) \/
    (exists m', (forall x, issue (AOIn k n x dst) m = Ret true) /\ do_copy_in k bs dst m = (Ret tt, m') /\
       forall l x, nth_error l x = Some (Some bs) -> aexec (AOIn k n x dst) (m, l) = Some (m', l)) \/
    ((forall x, issue (AOIn k n x dst) m = Throw runtime_error) /\ do_copy_in k bs dst m = (Throw runtime_error, m)).
  Proof.
    intros NU n. destruct bs as [|b bs]; [left; auto|]. right.
    assert (N : n =? 0 = false) by (apply Z.eqb_neq; subst n; cbn [length]; lia).
    unfold do_copy_in in NU. destruct (dst =? 0) eqn:Ed; [cbn in NU; congruence|].
    destruct (get_bytes m dst (length (b :: bs))) eqn:Eb; [|cbn in NU; congruence].
    destruct (kind_check m k false (m_dev m dst)) eqn:Ek; [left|right].
    - eexists. split; [|split].
      + intros x. unfold issue. rewrite N, Ed, Ek. auto.
      + unfold do_copy_in. rewrite Ed, Eb, Ek. reflexivity.
      + intros l' x E. unfold aexec. rewrite E. fold n. rewrite Z.eqb_refl. unfold do_copy_in. rewrite Ed, Eb, Ek. reflexivity.
    - split; [intros x; unfold issue; rewrite N, Ed, Ek; auto|]. unfold do_copy_in. rewrite Ed, Eb, Ek. auto.
  Qed.

  Lemma sim_copy_in k bs dst : sim idA none (p_copy_in k bs dst) (do_copy_in k bs dst).
  Proof.
    intros s W NU. unfold p_copy_in. cbn [srun]. cbn [s_mem]. pose proof W as (W1 & W2).
    destruct (copy_in_ok k bs dst (s_mem s) NU) as [(E0 & E1 & E2)|[(m' & E1 & E2 & E3)|(E1 & E2)]]; rewrite E1, E2.
    - rewrite srun_sync by (split; cbn; rewrite ?app_length; cbn; lia). cbn [srun s_mem s_loc s_last s_pos s_done s_evs].
      rewrite nth_app_mid. rewrite (nth_app_mid' (s_last s)) by auto. cbn [Nat.leb]. rewrite upd_app_mid.
      eexists. eexists. split; [reflexivity|]. cbn. repeat split; cbn; rewrite ?app_length; cbn; try lia; auto.
      + exists [None]. auto.
      + exists [0%nat]. auto.
      + eexists. split; [reflexivity|]. repeat constructor.
    - cbn [s_loc s_last s_pos s_done s_evs]. rewrite E3 by apply nth_app_mid. cbn [touch]. rewrite (upd_app_mid' (s_last s)) by auto.
      rewrite srun_sync by (split; cbn; rewrite ?app_length; cbn; lia). cbn [srun s_mem s_loc s_last s_pos s_done s_evs].
      rewrite nth_app_mid. rewrite (nth_app_mid' (s_last s)) by auto. rewrite Nat.leb_refl. rewrite upd_app_mid.
      eexists. eexists. split; [reflexivity|]. cbn. repeat split; cbn; rewrite ?app_length; cbn; try lia; auto.
      + exists [None]. auto.
      + exists [S (s_pos s)]. auto.
      + eexists. split; [reflexivity|]. repeat constructor.
    - cbn [srun s_mem s_loc s_last s_pos s_done s_evs]. rewrite nth_app_mid. rewrite (nth_app_mid' (s_last s)) by auto. cbn [Nat.leb]. rewrite upd_app_mid.
      eexists. eexists. split; [reflexivity|]. cbn. repeat split; cbn; rewrite ?app_length; cbn; try lia; auto.
      + exists [None]. auto.
      + exists [0%nat]. auto.
      + exists []. rewrite app_nil_r. auto.
  Qed.

  (** ** Vectors *)
  Definition drop_b (b : bool) : unit := tt.
  Lemma sim_issue_true o : sim drop_b ret_true (pbind (p_issue o) (fun _ => PRet true)) (op_fun o).
  Proof.
    eapply sim_ext with (f := fun m => cbind (op_fun o m) (fun _ m => (Ret tt, m))).
    { intros m. unfold cbind. destruct (op_fun o m) as [[[]| |] m']; reflexivity. }
    intros s W NU.
    assert (NU' : fst (op_fun o (s_mem s)) <> UB) by (intros E; apply NU; unfold cbind; destruct (op_fun o (s_mem s)) as [[| |] m]; cbn in *; congruence).
    destruct (sim_issue o s W NU') as (r & s' & H1 & H2 & H3 & H4 & H5 & H6). rewrite srun_bind, H1. unfold cbind.
    destruct (op_fun o (s_mem s)) as [r0 m0]. cbn [fst snd] in *. subst m0. destruct r as [u|e|]; cbn [omap] in H2; subst r0.
    - exists (Ret true), s'. repeat (split; [solve [auto]|]). discriminate.
    - exists (Throw e), s'. repeat (split; [solve [auto]|]). intros _. apply H6. reflexivity.
    - exists UB, s'. repeat (split; [solve [auto]|]). cbn in NU. congruence.
  Qed.

  Theorem sim_setup_vector v : sim drop_b ret_true (p_setup_vector v) (setup_vector v).
  Proof.
    unfold p_setup_vector, setup_vector. destruct ((v_sizep v =? 0) || (v_cap v =? 0)); [apply sim_ret; auto|]. exact (sim_issue_true (AOSet 4 (v_sizep v) 0)).
  Qed.
  Theorem sim_memset_vector sz v value : sim drop_b ret_true (p_memset_vector sz v value) (memset_vector sz v value).
  Proof.
    unfold p_memset_vector, memset_vector. destruct (v_cap v =? 0); [apply sim_ret; auto|]. exact (sim_issue_true (AOSet _ _ _)).
  Qed.
  Theorem sim_get_size v : sim idA none (p_get_size v) (get_size v).
  Proof.
    unfold p_get_size, get_size. destruct (v_sizep v =? 0); [apply sim_ret; auto|].
    apply (sim_bind idA idA none _ _ _ (fun bs m => (Ret (unle32 bs), m))); [apply sim_copy_out|]. intros bs. apply sim_ret. reflexivity.
  Qed.
  Theorem sim_copy_vector sz k from to : sim idA ret_true (p_copy_vector sz k from to) (copy_vector sz k from to).
  Proof.
    unfold p_copy_vector, copy_vector.
    apply (sim_bind idA idA ret_true _ _ _ (fun n m =>
      if n =? 0 then (Ret false, m)
      else if v_cap to <? n then (Throw length_error, m)
      else cbind (if v_sizep to =? 0 then (Ret tt, m) else do_copy_in (size_cptype k) (le32 n) (v_sizep to) m) (fun _ m =>
           cbind (do_copy k (n * sz) (v_ptr from) (v_ptr to) m) (fun _ m => (Ret true, m))))); [apply sim_get_size|].
    intros n. unfold idA. destruct (n =? 0); [apply sim_ret; auto|]. destruct (v_cap to <? n); [apply sim_throw|].
    apply (sim_bind idA idA ret_true _ (fun m => if v_sizep to =? 0 then (Ret tt, m) else do_copy_in (size_cptype k) (le32 n) (v_sizep to) m) _
             (fun _ m => cbind (do_copy k (n * sz) (v_ptr from) (v_ptr to) m) (fun _ m => (Ret true, m)))).
    - destruct (v_sizep to =? 0); [apply sim_ret; auto|apply sim_copy_in].
    - intros []. intros s W NU.
      assert (NU' : fst (op_fun (AOCopy k (n * sz) (v_ptr from) (v_ptr to)) (s_mem s)) <> UB).
      { cbn [sync_op]. intros E; apply NU; unfold cbind. destruct (do_copy _ _ _ _ (s_mem s)) as [[| |] m]; cbn in *; congruence. }
      destruct (sim_issue _ s W NU') as (r & s' & H1 & H2 & H3 & H4 & H5 & H6). rewrite srun_bind, H1. unfold cbind. cbn [sync_op] in *.
      destruct (do_copy k (n * sz) (v_ptr from) (v_ptr to) (s_mem s)) as [r0 m0]. cbn [fst snd] in *. subst m0. destruct r as [u|e|]; cbn [omap] in H2; subst r0.
      + exists (Ret true), s'. repeat (split; [solve [auto]|]). discriminate.
      + exists (Throw e), s'. repeat (split; [solve [auto]|]). intros _. apply H6. reflexivity.
      + congruence.
  Qed.
End Sim.
