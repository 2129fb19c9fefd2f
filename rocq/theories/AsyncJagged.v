(** Jagged vectors and SoA containers on a stream. *)
From Verif Require Import Async BaseLemmas AsyncProofs AsyncCopyProofs EdmBuffer EdmCopy.

Section Jagged.
  Variable fl : bool.
  Notation sim := (sim fl).

  Lemma sim_get_sizes_from l : sim idA none (p_get_sizes_from l) (get_sizes_from l).
  Proof.
    induction l as [|v l IH]; cbn [p_get_sizes_from get_sizes_from]; [apply sim_ret; auto|].
    destruct (negb (v_cap v =? 0) && negb (v_sizep v =? 0)).
    - apply (sim_bind fl idA idA none _ _ _ (fun bs m => (Ret (Some (unle32s (length (v :: l)) bs)), m))); [apply sim_copy_out|]. intros bs. apply sim_ret. auto.
    - apply (sim_bind fl idA idA none _ _ _ (fun r m => (Ret (option_map (cons 0) r), m))); [exact IH|]. intros r. apply sim_ret. auto.
  Qed.
  Lemma sim_get_sizes l : sim idA none (p_get_sizes l) (get_sizes l).
  Proof.
    unfold p_get_sizes, get_sizes.
    apply (sim_bind fl idA idA none _ _ _ (fun r m => match r with Some s => (Ret s, m) | None => (Ret (map v_cap l), m) end)); [apply sim_get_sizes_from|].
    intros [s|]; apply sim_ret; auto.
  Qed.

  Lemma sim_copy_op k n src dst : sim idA all (p_issue (AOCopy k n src dst)) (do_copy k n src dst).
  Proof. apply sim_fly with (fly := ret_only); [discriminate|]. exact (sim_issue fl (AOCopy k n src dst)). Qed.
  Lemma sim_copy_views sz k s : forall from to, sim idA all (p_copy_views sz k s from to) (copy_views sz k s from to).
  Proof.
    induction s as [|n s IH]; intros from to; cbn [p_copy_views copy_views].
    - apply sim_ret. auto.
    - destruct from as [|f from]; [apply sim_ub|]. destruct to as [|t to]; [apply sim_ub|].
      destruct (n =? 0); [apply IH|]. destruct (negb (v_ptr f =? 0) && negb (v_ptr t =? 0) && (n <=? v_cap f) && (n <=? v_cap t)); [|apply sim_ub].
      apply (sim_bind_all fl idA idA all _ _ _ (fun _ m => copy_views sz k s from to m)); [apply sim_copy_op|]. intros []. apply IH.
  Qed.
  Lemma sim_copy_first k total s : forall from to, sim idA all (p_copy_first k total s from to) (copy_first k total s from to).
  Proof.
    induction s as [|n s IH]; intros from to; cbn [p_copy_first copy_first].
    - apply sim_ret. auto.
    - destruct from as [|f from]; [apply sim_ub|]. destruct to as [|t to]; [apply sim_ub|].
      destruct (n =? 0); [apply IH|]. destruct (negb (v_ptr f =? 0) && negb (v_ptr t =? 0)); [|apply sim_ub]. apply sim_copy_op.
  Qed.

  (** The exceptions of the payload copies. *)
  Lemma do_copy_throw k n src dst m e : fst (do_copy k n src dst m) = Throw e -> e = runtime_error.
  Proof.
    unfold do_copy. intros H.
    repeat match type of H with fst (if ?b then _ else _) = _ => destruct b | fst match ?x with _ => _ end = _ => destruct x end; cbn in H; congruence.
  Qed.
  Lemma copy_views_throw sz k s : forall from to m e, fst (copy_views sz k s from to m) = Throw e -> e = runtime_error.
  Proof.
    induction s as [|n s IH]; intros from to m e H; cbn [copy_views] in H; [discriminate|].
    destruct from as [|f from]; [discriminate|]. destruct to as [|t to]; [discriminate|]. destruct (n =? 0); [eauto|].
    destruct (negb (v_ptr f =? 0) && negb (v_ptr t =? 0) && (n <=? v_cap f) && (n <=? v_cap t)); [|discriminate].
    unfold cbind in H. destruct (do_copy k (n * sz) (v_ptr f) (v_ptr t) m) as [[u|e'|] m'] eqn:E; [eauto|cbn in H; injection H as <-|discriminate].
    eapply do_copy_throw. rewrite E. reflexivity.
  Qed.
  Lemma copy_first_throw k total s : forall from to m e, fst (copy_first k total s from to m) = Throw e -> e = runtime_error.
  Proof.
    induction s as [|n s IH]; intros from to m e H; cbn [copy_first] in H; [discriminate|].
    destruct from as [|f from]; [discriminate|]. destruct to as [|t to]; [discriminate|]. destruct (n =? 0); [eauto|].
    destruct (negb (v_ptr f =? 0) && negb (v_ptr t =? 0)); [|discriminate]. eapply do_copy_throw; eauto.
  Qed.

  (** set_sizes *)
  Lemma set_sizes_cases s l m : fst (set_sizes s l m) <> UB ->
    ((forall x, p_set_sizes x s l = PRet false) /\ set_sizes s l m = (Ret tt, m)) \/
    (exists e, (forall x, p_set_sizes x s l = PThrow e) /\ set_sizes s l m = (Throw e, m)) \/
    (exists d, (forall x, p_set_sizes x s l = pbind (p_issue (AOIn type_unknown (Z.of_nat (length (flat_map le32 s))) x d)) (fun _ => PRet true)) /\
       set_sizes s l m = do_copy_in type_unknown (flat_map le32 s) d m).
  Proof.
    intros NU. unfold set_sizes, p_set_sizes in *. destruct s as [|n s].
    - destruct l as [|v l]; [left; auto|]. right; left. exists length_error. split; reflexivity.
    - destruct (negb (Nat.eqb (length (n :: s)) (length l))); [right; left; exists length_error; split; reflexivity|].
      destruct (check_sizes (n :: s) l true) as [[|]|e|]; [right; right|left; auto|right; left; eauto|left; auto]. eexists. split; [reflexivity|reflexivity].
  Qed.

  (** The state after set_sizes and the creation of its event, in the block of the local
      variable [sizes]. *)
  Lemma run_set_sizes s l (st : sstate) : wfs st -> fst (set_sizes s l (s_mem st)) <> UB ->
    let bs := flat_map le32 s in let x := length (s_loc st) in
    let st1 := mkS (s_mem st) (s_loc st ++ [Some bs]) (s_last st ++ [0%nat]) (s_pos st) (s_done st) (s_evs st) in
    (set_sizes s l (s_mem st) = (Ret tt, s_mem st) /\ srun fl (p_with_event (p_set_sizes x s l)) st1 = (Ret None, st1)) \/
    (exists e, set_sizes s l (s_mem st) = (Throw e, s_mem st) /\ srun fl (p_with_event (p_set_sizes x s l)) st1 = (Throw e, st1)) \/
    (exists m' n p, set_sizes s l (s_mem st) = (Ret tt, m') /\ (n <= p)%nat /\ (s_pos st <= p)%nat /\
      srun fl (p_with_event (p_set_sizes x s l)) st1 =
        (Ret (Some (length (s_evs st))), mkS m' (s_loc st ++ [Some bs]) (s_last st ++ [n]) p (s_done st) (s_evs st ++ [mkEO p false 0 true]))).
  Proof.
    intros W NU bs x st1. subst bs. unfold p_with_event. rewrite srun_bind. pose proof W as (W1 & W2).
    destruct (set_sizes_cases s l (s_mem st) NU) as [(E1 & E2)|[(e & E1 & E2)|(d & E1 & E2)]]; rewrite E1.
    - left. rewrite E2. auto.
    - right; left. exists e. rewrite E2. auto.
    - rewrite E2 in *. rewrite srun_bind. unfold p_issue. cbn [srun]. change (s_mem st1) with (s_mem st).
      destruct (copy_in_ok type_unknown (flat_map le32 s) d (s_mem st) NU) as [(F0 & F1 & F2)|[(m' & F1 & F2 & F3)|(F1 & F2)]]; rewrite F2, F1.
      + right; right. exists (s_mem st), 0%nat, (s_pos st). repeat (split; [auto; lia|]). reflexivity.
      + right; right. exists m', (S (s_pos st)), (S (s_pos st)). repeat (split; [auto; lia|]).
        cbn [st1 s_mem s_loc s_last s_pos s_done s_evs]. rewrite F3 by apply nth_app_mid. cbn [touch].
        rewrite (upd_app_mid' (s_last st)) by auto. reflexivity.
      + right; left. exists runtime_error. auto.
  Qed.

  (** Something may be in flight, unless the result is false or a length error. *)
  Definition fly_j (r : outcome bool) : bool := match r with Ret b => b | Throw length_error => false | _ => true end.

  Lemma sim_sizes_block s l (q : prog unit) (g : cmem -> cm unit) : sim idA all q g ->
    (forall m e, fst (g m) = Throw e -> e = runtime_error) ->
    (fl = true -> forall m, set_sizes s l m = (Ret tt, snd (set_sizes s l m)) -> forall e, fst (g (snd (set_sizes s l m))) <> Throw e) ->
    sim idA fly_j
      (PLocal (flat_map le32 s) (fun x => pfinally
          (pbind (p_with_event (p_set_sizes x s l)) (fun ev => pfinally (pbind q (fun _ => p_wait ev (PRet true))) (p_destroy ev)))
          (PFree x)))
      (fun m => cbind (set_sizes s l m) (fun _ m => cbind (g m) (fun _ m => (Ret true, m)))).
  Proof.
    intros Hq Hg Hfl st W NU. cbn [srun]. rewrite srun_finally, srun_bind. pose proof W as (W1 & W2).
    assert (NU1 : fst (set_sizes s l (s_mem st)) <> UB).
    { intros E. apply NU. unfold cbind. destruct (set_sizes s l (s_mem st)) as [[| |] m]; cbn in *; congruence. }
    destruct (run_set_sizes s l st W NU1) as [(E1 & E2)|[(e & E1 & E2)|(m' & n & p & E1 & Ln & Lp & E2)]]; cbn zeta in E2; rewrite E2, E1 in *.
    - (* no event *)
      rewrite srun_finally, srun_bind. cbn [p_destroy p_wait].
      unfold cbind in *.
      set (st1 := mkS (s_mem st) (s_loc st ++ [Some (flat_map le32 s)]) (s_last st ++ [0%nat]) (s_pos st) (s_done st) (s_evs st)) in *.
      assert (W' : wfs st1) by (split; cbn; rewrite ?app_length; cbn; lia).
      assert (NU2 : fst (g (s_mem st1)) <> UB) by (intros E; apply NU; change (s_mem st1) with (s_mem st) in E; destruct (g (s_mem st)) as [[| |] m]; cbn in *; congruence).
      destruct (Hq st1 W' NU2) as (r & st3 & H1 & H2 & H3 & ((l1 & A1 & A2) & (n1 & A3) & (e1 & A4 & A5) & A6 & A7) & (H5 & H5') & _).
      rewrite H1. change (s_mem st1) with (s_mem st) in *. destruct (g (s_mem st)) as [r0 m0] eqn:Eg. cbn [fst snd] in *. subst m0.
      cbn [st1 s_loc s_last s_evs s_done s_pos] in A1, A3, A4, A6, A7. rewrite <- app_assoc in A1, A3. cbn [app] in A1, A3.
      destruct r as [u|e|]; cbn [omap] in H2; subst r0; cbn [srun].
      + rewrite A1, A3, nth_app_mid, (nth_app_mid' (s_last st)) by auto. cbn [Nat.leb]. rewrite upd_app_mid.
        eexists. eexists. split; [reflexivity|]. cbn [omap fst snd s_mem]. split; [auto|]. split; [auto|]. split; [|split; [|discriminate]].
        * split; [exists (None :: l1); cbn; auto|]. split; [exists (0%nat :: n1); cbn; auto|]. split; [exists e1; cbn; auto|]. cbn. lia.
        * split; cbn; [|lia]. rewrite A1, A3, !app_length in H5. rewrite !app_length. cbn in *. lia.
      + rewrite A1, A3, nth_app_mid, (nth_app_mid' (s_last st)) by auto. cbn [Nat.leb]. rewrite upd_app_mid.
        eexists. eexists. split; [reflexivity|]. cbn [omap fst snd s_mem]. split; [auto|]. split; [auto|]. split; [|split].
        * split; [exists (None :: l1); cbn; auto|]. split; [exists (0%nat :: n1); cbn; auto|]. split; [exists e1; cbn; auto|]. cbn. lia.
        * split; cbn; [|lia]. rewrite A1, A3, !app_length in H5. rewrite !app_length. cbn in *. lia.
        * assert (Er : e = runtime_error) by (apply (Hg (s_mem st)); rewrite Eg; auto). rewrite Er. discriminate.
      + congruence.
    - (* set_sizes throws *)
      cbn [srun s_loc s_last s_done]. rewrite nth_app_mid, (nth_app_mid' (s_last st)) by auto. cbn [Nat.leb]. rewrite upd_app_mid. unfold cbind.
      eexists. eexists. split; [reflexivity|]. cbn. split; [auto|]. split; [auto|]. split; [|split].
      + split; [exists [None]; cbn; auto|]. split; [exists [0%nat]; cbn; auto|]. split; [exists []; cbn; rewrite app_nil_r; auto|]. cbn. lia.
      + split; cbn; rewrite ?app_length; cbn; lia.
      + intros _ Q. exact Q.
    - (* with an event *)
      rewrite srun_finally, srun_bind. cbn [p_destroy p_wait]. unfold cbind in *.
      set (st1 := mkS m' (s_loc st ++ [Some (flat_map le32 s)]) (s_last st ++ [n]) p (s_done st) (s_evs st ++ [mkEO p false 0 true])) in *.
      assert (W' : wfs st1) by (split; cbn; rewrite ?app_length; cbn; lia).
      assert (NU2 : fst (g (s_mem st1)) <> UB) by (intros E; apply NU; change (s_mem st1) with m' in E; destruct (g m') as [[| |] m]; cbn in *; congruence).
      destruct (Hq st1 W' NU2) as (r & st3 & H1 & H2 & H3 & ((l1 & A1 & A2) & (n1 & A3) & (e1 & A4 & A5) & A6 & A7) & (H5 & H5') & _).
      rewrite H1. change (s_mem st1) with m' in *. destruct (g m') as [r0 m0] eqn:Eg. cbn [fst snd] in *. subst m0.
      cbn [st1 s_loc s_last s_evs s_done s_pos] in A1, A3, A4, A6, A7. rewrite <- app_assoc in A1, A3, A4. cbn [app] in A1, A3, A4.
      destruct r as [u|e|]; cbn [omap] in H2; subst r0; cbn [srun].
      + rewrite A4, nth_app_mid. cbn [eo_alive negb eo_null]. cbn [s_evs]. rewrite upd_app_mid, nth_app_mid. cbn [ev_ignore eo_null eo_alive negb eo_pos eo_destroyed srun s_loc s_last s_done s_mem s_pos s_evs].
        rewrite A1, A3, nth_app_mid, (nth_app_mid' (s_last st)) by auto. replace (Nat.leb n (Nat.max (s_done st3) p)) with true by (symmetry; apply Nat.leb_le; lia).
        rewrite !upd_app_mid. eexists. eexists. split; [reflexivity|]. cbn [omap fst snd s_mem]. split; [auto|]. split; [auto|]. split; [|split; [|discriminate]].
        * split; [exists (None :: l1); cbn; auto|]. split; [exists (n :: n1); cbn; auto|]. split; [eexists; cbn; split; [reflexivity|constructor; [repeat split|auto]]|]. cbn. lia.
        * split; cbn; [|lia]. rewrite A1, A3, !app_length in H5. rewrite !app_length. cbn in *. lia.
      + destruct fl eqn:Efl.
        { exfalso. apply (Hfl eq_refl (s_mem st)) with (e := e); rewrite E1; cbn [snd]; [auto|]. rewrite Eg. auto. }
        rewrite A4, nth_app_mid. cbn [eo_alive negb eo_null ev_ignore ev_dead eo_pos eo_destroyed srun s_loc s_last s_done s_mem s_pos s_evs].
        rewrite A1, A3, nth_app_mid, (nth_app_mid' (s_last st)) by auto. replace (Nat.leb n (Nat.max (s_done st3) p)) with true by (symmetry; apply Nat.leb_le; lia).
        rewrite !upd_app_mid. eexists. eexists. split; [reflexivity|]. cbn [omap fst snd s_mem]. split; [auto|]. split; [auto|]. split; [|split].
        * split; [exists (None :: l1); cbn; auto|]. split; [exists (n :: n1); cbn; auto|]. split; [eexists; cbn; split; [reflexivity|constructor; [repeat split|auto]]|]. cbn. lia.
        * split; cbn; [|lia]. rewrite A1, A3, !app_length in H5. rewrite !app_length. cbn in *. lia.
        * assert (Er : e = runtime_error) by (apply (Hg m'); rewrite Eg; auto). rewrite Er. discriminate.
      + congruence.
  Qed.

  Theorem sim_copy_jagged sz k from to : fl = false -> sim idA fly_j (p_copy_jagged sz k from to) (copy_jagged sz k from to).
  Proof.
    intros Efl. unfold p_copy_jagged, copy_jagged. destruct (Nat.ltb (length to) (length from)); [apply sim_throw|].
    destruct from as [|f from]; [apply sim_ret; auto|].
    destruct (is_contiguous sz (f :: from)) as [fc| |]; [|apply sim_ub|apply sim_ub].
    destruct (is_contiguous sz (firstn (length (f :: from)) to)) as [tc| |]; [|apply sim_ub|apply sim_ub].
    apply (sim_bind fl idA idA fly_j _ _ _ (fun s m => cbind (set_sizes s to m) (fun _ m =>
        cbind (if fc && tc && caps_match (f :: from) to then copy_views_contiguous sz k (map v_cap (f :: from)) (f :: from) to m
               else copy_views sz k s (f :: from) to m) (fun _ m => (Ret true, m))))); [apply sim_get_sizes|].
    intros s. unfold idA at 1. 
    apply (sim_sizes_block s to _ (fun m => if fc && tc && caps_match (f :: from) to then copy_views_contiguous sz k (map v_cap (f :: from)) (f :: from) to m
               else copy_views sz k s (f :: from) to m)).
    - destruct (fc && tc && caps_match (f :: from) to); [apply sim_copy_first|apply sim_copy_views].
    - intros m e. destruct (fc && tc && caps_match (f :: from) to); [apply copy_first_throw|apply copy_views_throw].
    - congruence.
  Qed.

  Theorem sim_setup_jagged l : sim drop_b ret_true (p_setup_jagged l) (setup_jagged l).
  Proof.
    unfold p_setup_jagged, setup_jagged. destruct l as [|v l]; [apply sim_ret; auto|]. destruct (v_sizep v =? 0); [|exact (sim_issue_true fl (AOSet _ _ _))].
    cbn [pbind]. apply sim_ret. auto.
  Qed.
  Lemma sim_memset_each sz l value : sim drop_b all (p_memset_each sz l value) (memset_each sz l value).
  Proof.
    induction l as [|v l IH]; cbn [p_memset_each memset_each]; [apply sim_ret; auto|].
    apply (sim_bind_all fl idA drop_b ret_only _ _ _ (fun _ m => memset_each sz l value m)); [exact (sim_issue fl (AOSet _ _ _))|]. intros []. exact IH.
  Qed.
  Lemma memset_each_true sz l value : forall s b s', srun fl (p_memset_each sz l value) s = (Ret b, s') -> b = true.
  Proof.
    induction l as [|v l IH]; intros s b s' H; cbn [p_memset_each srun] in H; [congruence|]. rewrite srun_bind in H.
    destruct (srun fl (p_issue (AOSet (v_cap v * sz) (v_ptr v) value)) s) as [[u|e|] s1]; [eauto|discriminate|discriminate].
  Qed.
  Theorem sim_memset_jagged sz l value : sim drop_b (fly_b true) (p_memset_jagged sz l value) (memset_jagged sz l value).
  Proof.
    unfold p_memset_jagged, memset_jagged. destruct (is_contiguous sz l) as [[|]| |]; [| |apply sim_ub|apply sim_ub].
    - generalize (total_cap l). intros t. induction l as [|v l IH]; cbn [p_memset_first memset_first]; [apply sim_ret; auto|].
      destruct (negb (v_cap v =? 0) && negb (v_ptr v =? 0)); [|exact IH].
      apply sim_fly with (fly := ret_true); [intros [[|]| |]; cbn; auto; discriminate|]. exact (sim_issue_true fl (AOSet _ _ _)).
    - intros s W NU. destruct (sim_memset_each sz l value s W NU) as (r & s' & H1 & H2 & H3 & H4 & H5 & H6).
      exists r, s'. repeat (split; [solve [auto]|]). intros F. destruct r as [b|e|]; cbn in F; [|discriminate|discriminate].
      pose proof (memset_each_true _ _ _ _ _ _ H1). congruence.
  Qed.

  (** ** Calling a function and waiting on its event *)
  Definition forget {B} (f : cmem -> cm B) (m : cmem) : cm unit := cbind (f m) (fun _ m => (Ret tt, m)).
  Definition fly_c {A} (fly : outcome A -> bool) (r : outcome unit) : bool := match r with Throw e => fly (Throw e) | _ => false end.
  Definition toU {A} (a : A) : unit := tt.
  Lemma sim_call {B} (pi : bool -> B) fly p f : sim pi fly p f -> fly (Ret false) = false -> sim idA (fly_c fly) (p_call p) (forget f).
  Proof.
    intros H F s W NU. unfold p_call, p_with_event. rewrite !srun_bind.
    assert (NU1 : fst (f (s_mem s)) <> UB) by (intros E; apply NU; unfold forget, cbind; destruct (f (s_mem s)) as [[| |] m]; cbn in *; congruence).
    destruct (H s W NU1) as (r & s1 & H1 & H2 & H3 & H4 & H5 & H6). rewrite H1. unfold forget, cbind.
    destruct (f (s_mem s)) as [r0 m0]. cbn [fst snd] in *. subst m0. destruct r as [[|]|e|]; cbn [omap] in H2; subst r0.
    - cbn [srun p_event p_wait p_destroy s_evs s_done s_mem s_loc s_last s_pos]. rewrite nth_app_mid. cbn [eo_alive negb eo_null srun s_evs s_done s_mem s_loc s_last s_pos].
      rewrite upd_app_mid. rewrite nth_app_mid. cbn [ev_ignore eo_null eo_alive negb eo_pos eo_destroyed]. rewrite upd_app_mid. cbn [ev_dead eo_pos eo_null eo_destroyed].
      eexists. eexists. split; [reflexivity|]. split; [reflexivity|]. split; [reflexivity|]. destruct H5 as (H5 & H5').
      split; [|split; [split; cbn; [auto|lia]|intros _ _; cbn; unfold quiet; cbn; lia]].
      eapply ext_trans; [exact H4|]. split; [exists []; cbn; rewrite app_nil_r; auto|]. split; [exists []; cbn; now rewrite app_nil_r|].
      split; [eexists; cbn; split; [reflexivity|repeat constructor]|cbn; lia].
    - cbn [srun p_wait p_destroy]. exists (Ret tt), s1. repeat (split; [solve [auto]|]). intros _ Q. apply H6; auto.
    - exists (Throw e), s1. repeat (split; [solve [auto]|]). cbn [fly_c]. intros Q. apply H6. auto.
    - congruence.
  Qed.
  Lemma sim_drop {B} (pi : bool -> B) fly p f : fl = false -> sim pi fly p f -> fly (Ret false) = false -> sim idA (fly_c fly) (p_drop p) (forget f).
  Proof.
    intros Efl H F s W NU. unfold p_drop, p_with_event. rewrite !srun_bind.
    assert (NU1 : fst (f (s_mem s)) <> UB) by (intros E; apply NU; unfold forget, cbind; destruct (f (s_mem s)) as [[| |] m]; cbn in *; congruence).
    destruct (H s W NU1) as (r & s1 & H1 & H2 & H3 & H4 & H5 & H6). rewrite H1. unfold forget, cbind.
    destruct (f (s_mem s)) as [r0 m0]. cbn [fst snd] in *. subst m0. destruct r as [[|]|e|]; cbn [omap] in H2; subst r0.
    - cbn [srun p_event p_wait p_destroy s_evs s_done s_mem s_loc s_last s_pos]. rewrite nth_app_mid. cbn [eo_alive negb eo_null srun s_evs s_done s_mem s_loc s_last s_pos].
      rewrite Efl. cbn [ev_ignore eo_null eo_alive negb eo_pos eo_destroyed]. rewrite upd_app_mid. cbn [ev_dead eo_pos eo_null eo_destroyed].
      eexists. eexists. split; [reflexivity|]. split; [reflexivity|]. split; [reflexivity|]. destruct H5 as (H5 & H5').
      split; [|split; [split; cbn; [auto|lia]|intros _ _; cbn; unfold quiet; cbn; lia]].
      eapply ext_trans; [exact H4|]. split; [exists []; cbn; rewrite app_nil_r; auto|]. split; [exists []; cbn; now rewrite app_nil_r|].
      split; [eexists; cbn; split; [reflexivity|repeat constructor]|cbn; lia].
    - cbn [srun p_wait p_destroy]. exists (Ret tt), s1. repeat (split; [solve [auto]|]). intros _ Q. apply H6; auto.
    - exists (Throw e), s1. repeat (split; [solve [auto]|]). cbn [fly_c]. intros Q. apply H6. auto.
    - congruence.
  Qed.

  (** ** SoA containers *)
  Variable vars : list var.
  Lemma forget_unit (f : cmem -> cm unit) m : forget f m = f m.
  Proof. unfold forget, cbind. destruct (f m) as [[[]| |] m']; auto. Qed.

  Theorem sim_edm_setup e : sim drop_b ret_true (p_edm_setup e) (edm_setup e).
  Proof.
    unfold p_edm_setup, edm_setup. destruct (ev_cap e =? 0); [apply sim_ret; auto|].
    destruct (m_ptr (ev_size e) =? 0); [cbn [pbind]; apply sim_ret; auto|]. destruct (m_len (ev_size e) =? 0); [apply sim_ub|].
    exact (sim_issue_true fl (AOSet _ _ _)).
  Qed.

  Lemma sim_memset_vars value : fl = false -> forall vs es, sim idA all (p_memset_vars vs es value) (memset_vars vs es value).
  Proof.
    intros Efl. induction vs as [|v vs IH]; intros es; cbn [p_memset_vars memset_vars]; [apply sim_ret; auto|].
    destruct es as [|e es]; [apply sim_ret; auto|].
    apply (sim_bind_all fl idA idA all _ (fun m => match e with
             | EScalar p => do_memset (ve_sz v) p value m
             | EVector x => memset_vector (ve_sz v) (cv x) value m
             | EJagged _ _ _ inner => memset_jagged (ve_sz v) (map cv inner) value m
             end) _ (fun _ m => memset_vars vs es value m)); [|intros []; apply IH].
    destruct e as [p|x|p q r inner].
    - apply sim_fly with (fly := ret_only); [discriminate|]. exact (sim_issue fl (AOSet _ _ _)).
    - apply sim_ext with (f := forget (memset_vector (ve_sz v) (cv x) value)); [apply forget_unit|].
      apply sim_fly with (fly := fly_c ret_true); [discriminate|]. apply (sim_drop drop_b); auto. apply sim_memset_vector.
    - apply sim_ext with (f := forget (memset_jagged (ve_sz v) (map cv inner) value)); [apply forget_unit|].
      apply sim_fly with (fly := fly_c (fly_b true)); [discriminate|]. apply (sim_drop drop_b); auto. apply sim_memset_jagged.
  Qed.
  Lemma sim_true (p : prog unit) f : sim idA all p f -> sim drop_b (fly_b true) (pbind p (fun _ => PRet true)) f.
  Proof.
    intros H s W NU. destruct (H s W NU) as (r & s1 & H1 & H2 & H3 & H4 & H5 & H6). rewrite srun_bind, H1. destruct r as [[]|e|]; cbn [omap] in H2; unfold idA in H2.
    - exists (Ret true), s1. cbn [srun]. repeat (split; [solve [auto]|]). discriminate.
    - exists (Throw e), s1. repeat (split; [solve [auto]|]). discriminate.
    - exists UB, s1. congruence.
  Qed.
  Theorem sim_edm_memset e value : fl = false -> sim drop_b (fly_b true) (p_edm_memset vars e value) (edm_memset vars e value).
  Proof.
    intros Efl. unfold p_edm_memset, edm_memset. apply sim_true. destruct (negb (m_ptr (ev_payload e) =? 0)); [|apply sim_memset_vars; auto].
    apply sim_ext with (f := forget (memset_vector 1 (raw_view (ev_payload e)) value)); [apply forget_unit|].
    apply sim_fly with (fly := fly_c ret_true); [discriminate|]. apply (sim_drop drop_b); auto. apply sim_memset_vector.
  Qed.
  Theorem sim_edm_get_size e : sim idA none (p_edm_get_size vars e) (edm_get_size vars e).
  Proof.
    unfold p_edm_get_size, edm_get_size. destruct (jagged_schema vars); [apply sim_ret; auto|]. destruct (m_ptr (ev_size e) =? 0); [apply sim_ret; auto|].
    destruct (negb (m_len (ev_size e) =? 4)); [apply sim_ub|].
    apply (sim_bind fl idA idA none _ _ _ (fun bs m => (Ret (unle32 bs), m))); [apply sim_copy_out|]. intros bs. apply sim_ret. auto.
  Qed.

  (** set_sizes, waited for. *)
  Lemma sim_sizes_call s l : sim idA none (PLocal (flat_map le32 s) (fun x => pfinally (p_call (p_set_sizes x s l)) (PFree x))) (set_sizes s l).
  Proof.
    intros st W NU. cbn [srun]. rewrite srun_finally. unfold p_call. rewrite srun_bind. pose proof W as (W1 & W2).
    destruct (run_set_sizes s l st W NU) as [(E1 & E2)|[(e & E1 & E2)|(m' & n & p & E1 & Ln & Lp & E2)]]; cbn zeta in E2; rewrite E2, E1.
    - cbn [p_wait p_destroy srun s_loc s_last s_done]. rewrite nth_app_mid, (nth_app_mid' (s_last st)) by auto. cbn [Nat.leb]. rewrite upd_app_mid.
      eexists. eexists. split; [reflexivity|]. split; [reflexivity|]. split; [reflexivity|]. split; [|split].
      + split; [exists [None]; cbn; auto|]. split; [exists [0%nat]; cbn; auto|]. split; [exists []; cbn; rewrite app_nil_r; auto|]. cbn. lia.
      + split; cbn; rewrite ?app_length; cbn; lia.
      + intros _ Q. exact Q.
    - cbn [srun s_loc s_last s_done]. rewrite nth_app_mid, (nth_app_mid' (s_last st)) by auto. cbn [Nat.leb]. rewrite upd_app_mid.
      eexists. eexists. split; [reflexivity|]. split; [reflexivity|]. split; [reflexivity|]. split; [|split].
      + split; [exists [None]; cbn; auto|]. split; [exists [0%nat]; cbn; auto|]. split; [exists []; cbn; rewrite app_nil_r; auto|]. cbn. lia.
      + split; cbn; rewrite ?app_length; cbn; lia.
      + intros _ Q. exact Q.
    - cbn [p_wait p_destroy srun s_evs]. rewrite nth_app_mid. cbn [eo_alive negb eo_null srun s_evs s_done s_mem s_loc s_last s_pos].
      rewrite upd_app_mid, nth_app_mid. cbn [ev_ignore eo_null eo_alive negb eo_pos eo_destroyed s_loc s_last s_done s_mem s_pos s_evs srun].
      rewrite nth_app_mid, (nth_app_mid' (s_last st)) by auto. replace (Nat.leb n (Nat.max (s_done st) p)) with true by (symmetry; apply Nat.leb_le; lia).
      rewrite !upd_app_mid. eexists. eexists. split; [reflexivity|]. split; [reflexivity|]. split; [reflexivity|]. split; [|split].
      + split; [exists [None]; cbn; auto|]. split; [exists [n]; cbn; auto|]. split; [eexists; cbn; split; [reflexivity|repeat constructor]|]. cbn. lia.
      + split; cbn; rewrite ?app_length; cbn; lia.
      + intros _ Q. unfold quiet in *. cbn. lia.
  Qed.
  Lemma sim_copy_sizes_vars : forall fs ts, sim idA none (p_copy_sizes_vars fs ts) (copy_sizes_vars fs ts).
  Proof.
    induction fs as [|f fs IH]; intros ts; cbn [p_copy_sizes_vars copy_sizes_vars]; [apply sim_ret; auto|].
    destruct ts as [|t ts]; [destruct f; apply sim_ret; auto|].
    destruct f as [p|x|p q r f]; [apply IH|apply IH|]. destruct t as [p'|x'|p' q' r' t]; [apply IH|apply IH|].
    apply sim_ext with (f := fun m => cbind (cbind (get_sizes (map cv f) m) (fun s m => set_sizes s (map cv t) m)) (fun _ m => copy_sizes_vars fs ts m)).
    { intros m. unfold cbind. destruct (get_sizes (map cv f) m) as [[s| |] m']; auto. }
    apply (sim_bind fl idA idA none _ (fun m => cbind (get_sizes (map cv f) m) (fun s m => set_sizes s (map cv t) m)) _ (fun _ m => copy_sizes_vars fs ts m)); [|intros []; apply IH].
    apply (sim_bind fl idA idA none _ _ _ (fun s m => set_sizes s (map cv t) m)); [apply sim_get_sizes|]. intros s. apply sim_sizes_call.
  Qed.
  Lemma sim_copy_sizes k from to : sim idA none (p_copy_sizes vars k from to) (copy_sizes vars k from to).
  Proof. unfold p_copy_sizes, copy_sizes. destruct (jagged_schema vars); [apply sim_copy_sizes_vars|apply sim_copy_in]. Qed.

  Lemma sim_forget {A} (p : prog A) f fly : sim idA fly p f -> sim idA all (pbind p (fun _ => PRet tt)) (fun m => cbind (f m) (fun _ m => (Ret tt, m))).
  Proof. intros H. apply (sim_bind_all fl idA idA fly _ _ _ (fun _ m => (Ret tt, m))); [auto|]. intros a. apply sim_ret. auto. Qed.
  Lemma sim_copy_vars k : fl = false -> forall vs fs ts, sim idA all (p_copy_vars k vs fs ts) (copy_vars k vs fs ts).
  Proof.
    intros Efl. induction vs as [|v vs IH]; intros fs ts; cbn [p_copy_vars copy_vars]; [apply sim_ret; auto|].
    destruct fs as [|f fs]; [apply sim_ret; auto|]. destruct ts as [|t ts]; [apply sim_ret; auto|].
    apply (sim_bind_all fl idA idA all _ (fun m => match f, t with
             | EScalar p, EScalar q => do_copy k (ve_sz v) p q m
             | EVector x, EVector y => cbind (copy_vector (ve_sz v) k (cv x) (cv y) m) (fun _ m => (Ret tt, m))
             | EJagged _ _ _ x, EJagged _ _ _ y => cbind (copy_jagged (ve_sz v) k (map cv x) (map cv y) m) (fun _ m => (Ret tt, m))
             | _, _ => (UB, m)
             end) _ (fun _ m => copy_vars k vs fs ts m)); [|intros []; apply IH].
    destruct f as [p|x|p q r f], t as [p'|x'|p' q' r' t]; try apply sim_ub.
    - apply sim_copy_op.
    - apply (sim_forget _ _ ret_true). apply sim_copy_vector.
    - apply (sim_forget _ _ fly_j). apply sim_copy_jagged. auto.
  Qed.
  Theorem sim_edm_copy k from to : fl = false -> sim drop_b (fly_b true) (p_edm_copy vars k from to) (edm_copy vars k from to).
  Proof.
    intros Efl. unfold p_edm_copy, edm_copy.
    destruct (negb (m_ptr (ev_payload from) =? 0) && negb (m_ptr (ev_payload to) =? 0) && (m_len (ev_payload from) =? m_len (ev_payload to))).
    - destruct (m_len (ev_payload from) =? 0); [apply sim_ret; auto|]. apply sim_true.
      apply (sim_bind_all fl idA idA ret_true _ _ _ (fun _ m =>
        if m_ptr (ev_size to) =? 0 then (Ret tt, m)
        else if negb (m_ptr (ev_size from) =? 0) then
          if negb (m_len (ev_size from) =? m_len (ev_size to)) then (Throw length_error, m)
          else cbind (copy_vector 1 k (raw_view (ev_size from)) (raw_view (ev_size to)) m) (fun _ m => (Ret tt, m))
        else copy_sizes vars k from to m)); [apply sim_copy_vector|].
      intros b. destruct (m_ptr (ev_size to) =? 0); [apply sim_ret; auto|]. destruct (negb (m_ptr (ev_size from) =? 0)).
      + destruct (negb (m_len (ev_size from) =? m_len (ev_size to))); [apply sim_throw|]. apply (sim_forget _ _ ret_true). apply sim_copy_vector.
      + apply sim_fly with (fly := none); [discriminate|]. apply sim_copy_sizes.
    - apply sim_true. apply sim_copy_vars. auto.
  Qed.
End Jagged.

(** ** All schedules *)
Theorem call_thm fl {B} (pi : bool -> B) fly p f m : sim fl pi fly p f -> fly (Ret false) = false -> fst (f m) <> UB ->
  forall p' a', asteps fl (p_call p, a_init m) (p', a') ->
  p' <> PUB /\
  (p' = PRet tt -> (exists b, fst (f m) = Ret b) /\ a_q a' = [] /\ a_mem a' = snd (f m)) /\
  (forall e, p' = PThrow e -> fst (f m) = Throw e /\ (fly (Throw e) = false -> a_q a' = [] /\ a_mem a' = snd (f m))) /\
  (p' = PRet tt \/ (exists e, p' = PThrow e) \/ exists c, astep fl (p', a') c).
Proof.
  intros H F NU p' a' ST.
  assert (NU1 : fst (forget f m) <> UB) by (unfold forget, cbind; destruct (f m) as [[| |] m']; cbn in *; congruence).
  destruct (sim_call fl pi fly p f H F (s_init m) ltac:(split; cbn; lia) NU1) as (r & s' & H1 & H2 & H3 & _ & _ & H6).
  cbn [s_init s_mem] in H2, H3.
  assert (NR : r <> UB) by (intros ->; cbn in H2; congruence).
  destruct (async_thm fl (p_call p) m r s' H1 NR p' a' ST) as (G1 & G2 & G3 & _).
  split; [auto|]. split; [|split].
  - intros ->. pose proof (G2 tt eq_refl) as Er. rewrite Er in H2, H6. unfold forget, cbind in H2, H3.
    destruct (f m) as [[b| |] m'] eqn:Ef; cbn in H2, H3; try discriminate. split; [exists b; reflexivity|]. cbn [snd]. rewrite <- H3.
    apply (async_quiet fl (p_call p) m r s' H1 NR (H6 eq_refl eq_refl) (PRet tt) a' ST). eauto.
  - intros e ->. pose proof (G3 e eq_refl) as Er. rewrite Er in H2, H6. unfold forget, cbind in H2, H3.
    destruct (f m) as [[b| |] m'] eqn:Ef; cbn in H2, H3; try discriminate. injection H2 as <-. split; [auto|]. cbn [snd]. rewrite <- H3. intros Q.
    apply (async_quiet fl (p_call p) m r s' H1 NR (H6 Q eq_refl) (PThrow e) a' ST). eauto.
  - destruct (async_progress fl (p_call p) m r s' H1 NR p' a' ST) as [([] & ->)|[X|X]]; auto.
Qed.
