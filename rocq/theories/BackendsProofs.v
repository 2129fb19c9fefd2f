(** Proofs about the implementations of do_copy and do_memset, and about CUDA events. *)
From Verif Require Import Base BaseLemmas Copy CopyProofs Backends.

(** ** Copies *)
Lemma cuda_copy_eq k n src dst m : m_strict m = true -> cuda_copy true (cp_code k) n src dst m = do_copy k n src dst m.
Proof.
  intros Hs. unfold cuda_copy, do_copy, rt_memcpy, raw_copy, kind_check. rewrite Hs. cbn [negb orb].
  destruct (n =? 0); [reflexivity|].
  replace ((src =? 0) || (dst =? 0) || (cp_code k <? 0) || (5 <=? cp_code k)) with ((src =? 0) || (dst =? 0)) by (destruct k; cbn; lia).
  destruct ((src =? 0) || (dst =? 0)); [reflexivity|].
  destruct (get_bytes m src (Z.to_nat n)), (get_bytes m dst (Z.to_nat n)); destruct k; cbn;
    try reflexivity; destruct ((src <? dst + n) && (dst <? src + n)); reflexivity.
Qed.
Lemma do_copy_loose k k' n src dst m : m_strict m = false -> do_copy k n src dst m = do_copy k' n src dst m.
Proof. intros H. unfold do_copy, kind_check. rewrite H. reflexivity. Qed.
Lemma sycl_copy_eq n src dst m : sycl_copy true n src dst m = do_copy type_unknown n src dst m.
Proof.
  unfold sycl_copy, do_copy, rt_simple, raw_copy, kind_check. cbn [kind_ok]. rewrite Bool.orb_true_r.
  destruct (n =? 0); [reflexivity|]. destruct ((src =? 0) || (dst =? 0)); [reflexivity|].
  destruct (get_bytes m src (Z.to_nat n)), (get_bytes m dst (Z.to_nat n)); try reflexivity.
  destruct ((src <? dst + n) && (dst <? src + n)); reflexivity.
Qed.
Lemma posix_copy_eq n src dst m : src <> 0 -> dst <> 0 -> posix_copy n src dst m = do_copy type_unknown n src dst m.
Proof.
  intros H1 H2. rewrite <- sycl_copy_eq. unfold posix_copy, sycl_copy.
  replace ((src =? 0) || (dst =? 0)) with false by lia. destruct (n =? 0); [reflexivity|].
  unfold rt_simple. destruct (raw_copy n src dst m); reflexivity.
Qed.

Lemma cuda_memset_eq n dst value m : cuda_memset true n dst value m = do_memset n dst value m.
Proof.
  unfold cuda_memset, do_memset, rt_simple, raw_set. destruct (n =? 0), (dst =? 0); try reflexivity.
  destruct (get_bytes m dst (Z.to_nat n)); reflexivity.
Qed.
Lemma posix_memset_eq n dst value m : dst <> 0 -> posix_memset n dst value m = do_memset n dst value m.
Proof.
  intros H. unfold posix_memset, do_memset, raw_set. replace (dst =? 0) with false by lia. destruct (n =? 0); [reflexivity|].
  destruct (get_bytes m dst (Z.to_nat n)); reflexivity.
Qed.
Lemma firstn_repeat_app {A} (b : A) n l : firstn n (repeat b n ++ l) = repeat b n.
Proof. rewrite firstn_app, repeat_length, Nat.sub_diag, firstn_O, app_nil_r. rewrite <- (repeat_length b n) at 1. apply firstn_all. Qed.
Lemma sycl_memset_eq native n dst value m : 0 <= n < 2 ^ 63 - 8 -> sycl_memset native true n dst value m = do_memset n dst value m.
Proof.
  intros Hn. unfold sycl_memset, do_memset, rt_simple, raw_set. destruct (n =? 0); [reflexivity|]. destruct (dst =? 0); [reflexivity|].
  assert (D := Z.div_mod n 4 ltac:(lia)). assert (B := Z.mod_pos_bound n 4 ltac:(lia)).
  destruct native; [destruct (get_bytes m dst (Z.to_nat n)); reflexivity|].
  replace (2 ^ 61 - 1 <? n / 4 + 1) with false by lia.
  unfold fill_n. rewrite repeat_length. replace (Nat.leb (Z.to_nat n) (Z.to_nat (4 * (n / 4 + 1)))) with true.
  2:{ symmetry. apply Nat.leb_le. lia. }
  rewrite firstn_repeat_app. destruct (get_bytes m dst (Z.to_nat n)); reflexivity.
Qed.

(** A failing call of the runtime is reported and changes nothing. *)
Lemma cuda_copy_fails cp n src dst m : cuda_copy false cp n src dst m = (Ret tt, m) \/ cuda_copy false cp n src dst m = (Throw runtime_error, m) \/ cuda_copy false cp n src dst m = (UB, m).
Proof.
  unfold cuda_copy, rt_memcpy, raw_copy. destruct (n =? 0); [tauto|]. destruct (_ || _); [tauto|]. destruct (nth_error _ _); [|tauto].
  destruct (get_bytes m src (Z.to_nat n)), (get_bytes m dst (Z.to_nat n)); try (cbn; tauto). destruct (_ && _); cbn; tauto.
Qed.

(** What the copies do, in terms of bytes.  [fits]: what CUDA and HIP require of the copy
    type. *)
Definition side_ok (k : cptype) (src_dev dst_dev : bool) : Prop :=
  match k with
  | host_to_device => src_dev = false /\ dst_dev = true
  | device_to_host => src_dev = true /\ dst_dev = false
  | host_to_host => src_dev = false /\ dst_dev = false
  | device_to_device => src_dev = true /\ dst_dev = true
  | type_unknown => True
  end.
Lemma side_okb k a b : side_ok k a b -> kind_ok k a b = true.
Proof. destruct k, a, b; cbn; intuition congruence. Qed.

Lemma cuda_copy_run k n src dst m : 0 < n -> src <> 0 -> dst <> 0 -> acc m src n -> acc m dst n -> apart src n dst n ->
  exists m', changes (within dst n) m m' /\ same_acc m m' /\ (forall i, 0 <= i < n -> m_byte m' (dst + i) = m_byte m (src + i)) /\
    (side_ok k (m_dev m src) (m_dev m dst) -> cuda_copy true (cp_code k) n src dst m = (Ret tt, m')) /\
    (~ side_ok k (m_dev m src) (m_dev m dst) -> cuda_copy true (cp_code k) n src dst m = (Throw runtime_error, m)) /\
    cuda_copy false (cp_code k) n src dst m = (Throw runtime_error, m) /\
    sycl_copy true n src dst m = (Ret tt, m') /\ sycl_copy false n src dst m = (Throw runtime_error, m) /\
    posix_copy n src dst m = (Ret tt, m').
Proof.
  intros Hn H1 H2 As Ad Ap. destruct (do_copy_ok type_unknown n src dst m ltac:(lia)) as (m' & E & C & S & B); auto.
  { intros _. split; [auto|]. split; [auto|]. unfold kind_check. cbn. apply Bool.orb_true_r. }
  exists m'. split; [exact C|]. split; [exact S|]. split; [exact B|].
  assert (E' : raw_copy n src dst m = Ret m').
  { revert E. unfold do_copy, raw_copy. replace (n =? 0) with false by lia. replace ((src =? 0) || (dst =? 0)) with false by lia.
    unfold kind_check. cbn [kind_ok]. rewrite Bool.orb_true_r.
    destruct (get_bytes m src (Z.to_nat n)), (get_bytes m dst (Z.to_nat n)); try discriminate.
    destruct (_ && _); [discriminate|]. intros E. injection E as <-. reflexivity. }
  assert (F : forall ok, cuda_copy ok (cp_code k) n src dst m = if ok && kind_ok k (m_dev m src) (m_dev m dst) then (Ret tt, m') else (Throw runtime_error, m)).
  { intros ok. unfold cuda_copy. replace (n =? 0) with false by lia.
    replace ((src =? 0) || (dst =? 0) || (cp_code k <? 0) || (5 <=? cp_code k)) with false by (destruct k; cbn; lia).
    destruct k; cbn [cp_code Z.to_nat Pos.to_nat Pos.iter_op Nat.add nth_error copy_type_translator]; unfold rt_memcpy; rewrite E'; reflexivity. }
  split; [intros K; rewrite F, (side_okb _ _ _ K); reflexivity|].
  split. { intros K. rewrite F. destruct (kind_ok k _ _) eqn:Ek; [|reflexivity]. exfalso. apply K. revert Ek.
           destruct k, (m_dev m src), (m_dev m dst); cbn; intuition discriminate. }
  split; [rewrite F; reflexivity|].
  unfold sycl_copy, posix_copy, rt_simple. replace (n =? 0) with false by lia. replace ((src =? 0) || (dst =? 0)) with false by lia. rewrite E'.
  split; [reflexivity|]. split; reflexivity.
Qed.

Lemma memset_run native n dst value m : 0 < n < 2 ^ 63 - 8 -> dst <> 0 -> acc m dst n ->
  exists m', changes (within dst n) m m' /\ same_acc m m' /\ (forall x, within dst n x -> m_byte m' x = Some (value mod 256)) /\
    cuda_memset true n dst value m = (Ret tt, m') /\ cuda_memset false n dst value m = (Throw runtime_error, m) /\
    sycl_memset native true n dst value m = (Ret tt, m') /\ sycl_memset native false n dst value m = (Throw runtime_error, m) /\
    posix_memset n dst value m = (Ret tt, m').
Proof.
  intros Hn H2 Ad. destruct (do_memset_ok n dst value m ltac:(lia) ltac:(auto) Ad) as (m' & E & C & S & B).
  exists m'. split; [exact C|]. split; [exact S|]. split; [exact B|].
  split; [rewrite cuda_memset_eq; exact E|].
  assert (A : exists bs, get_bytes m dst (Z.to_nat n) = Some bs) by (apply acc_get; [lia|auto]). destruct A as (bs & Eb).
  split. { unfold cuda_memset, raw_set. replace (n =? 0) with false by lia. replace (dst =? 0) with false by lia. rewrite Eb. reflexivity. }
  split; [rewrite sycl_memset_eq by lia; exact E|].
  split. { unfold sycl_memset, raw_set. replace (n =? 0) with false by lia. replace (dst =? 0) with false by lia. rewrite Eb.
           assert (D := Z.div_mod n 4 ltac:(lia)). assert (Bd := Z.mod_pos_bound n 4 ltac:(lia)).
           destruct native; [reflexivity|]. replace (2 ^ 61 - 1 <? n / 4 + 1) with false by lia.
           unfold fill_n. rewrite repeat_length. replace (Nat.leb (Z.to_nat n) (Z.to_nat (4 * (n / 4 + 1)))) with true; [reflexivity|].
           symmetry. apply Nat.leb_le. lia. }
  rewrite posix_memset_eq by auto. exact E.
Qed.

(** Empty ranges. *)
Lemma empty_copies ok native cp src dst value m :
  cuda_copy ok cp 0 src dst m = (Ret tt, m) /\ sycl_copy ok 0 src dst m = (Ret tt, m) /\
  cuda_memset ok 0 dst value m = (Ret tt, m) /\ sycl_memset native ok 0 dst value m = (Ret tt, m).
Proof. repeat split; reflexivity. Qed.

(** ** Events *)
Section Events.
  Variable fa : bool.

  (** When all the calls of the runtime succeed. *)
  Lemma e_call_ok c d : (forall i, e_orc d i = true) -> e_call c d = (true, mkED ((c, true) :: e_log d) (e_orc d)).
  Proof. intros H. unfold e_call. rewrite H. reflexivity. Qed.
  Lemma o_use_none us d : o_use us None d = (map (fun _ => false) us, None, d).
  Proof. induction us as [|u us IH]; [reflexivity|]. cbn [o_use map]. destruct u; cbn [o_wait o_ignore]; rewrite IH; reflexivity. Qed.

  Definition first_waits (us : list euse) : bool := match us with UIgnore :: _ => false | _ => true end.
  Lemma o_life_ok h us d : (forall i, e_orc d i = true) ->
    exists d', o_life fa h us d = (if match us with [] => fa | _ => false end then RTerminate else ROk (map (fun _ => false) us), d') /\
      e_log d' = (EDestroy h, true) :: (if first_waits us then [(ESync h, true)] else []) ++ (ERecord h, true) :: (ECreate h, true) :: e_log d.
  Proof.
    intros H. unfold o_life, o_create. rewrite e_call_ok by exact H. cbn [negb]. rewrite e_call_ok by exact H.
    destruct us as [|[|] us]; cbn [o_use o_wait o_ignore o_destroy].
    - rewrite e_call_ok by exact H. rewrite e_call_ok by exact H. destruct fa; eexists; split; reflexivity.
    - rewrite e_call_ok by exact H. rewrite e_call_ok by exact H. rewrite o_use_none. eexists; split; reflexivity.
    - rewrite e_call_ok by exact H. rewrite o_use_none. eexists; split; reflexivity.
  Qed.

  (** With any failures: what the program may do next on a handle. *)
  Definition destroyed (h : nat) (l : list (ecall * bool)) : nat := length (filter (fun '(c, ok) => match c with EDestroy x => Nat.eqb x h && ok | _ => false end) l).
  (** The log grows by calls on [h], of which only the newest may be a successful destruction. *)
  Inductive grows (h : nat) : option nat -> list (ecall * bool) -> option nat -> list (ecall * bool) -> Prop :=
  | g_refl o l : grows h o l o l
  | g_sync l ok o' l' : grows h (Some h) ((ESync h, ok) :: l) o' l' -> grows h (Some h) l o' l'
  | g_nodes l o' l' : grows h (Some h) ((EDestroy h, false) :: l) o' l' -> grows h (Some h) l o' l'
  | g_des l : grows h (Some h) l None ((EDestroy h, true) :: l).
  Lemma grows_trans h o l o' l' o'' l'' : grows h o l o' l' -> grows h o' l' o'' l'' -> grows h o l o'' l''.
  Proof.
    intros G1. induction G1; intros G2; [exact G2|eapply g_sync; eauto|eapply g_nodes; eauto|].
    inversion G2; subst. apply g_des.
  Qed.
  Lemma grows_ignore h d : match o_ignore (Some h) d with
    | (ROk _, o, d') => o = None /\ e_log d' = (EDestroy h, true) :: e_log d
    | (RThrow, o, d') => o = Some h /\ e_log d' = (EDestroy h, false) :: e_log d
    | (RTerminate, _, _) => False
    end.
  Proof. cbn. destruct (e_orc d (length (e_log d))); split; reflexivity. Qed.
  Lemma grows_wait h d : match o_wait (Some h) d with
    | (ROk _, o, d') => o = None /\ e_log d' = (EDestroy h, true) :: (ESync h, true) :: e_log d
    | (RThrow, o, d') => o = Some h /\ (e_log d' = (ESync h, false) :: e_log d \/ e_log d' = (EDestroy h, false) :: (ESync h, true) :: e_log d)
    | (RTerminate, _, _) => False
    end.
  Proof.
    cbn [o_wait]. unfold e_call at 1. destruct (e_orc d (length (e_log d))); [|split; [reflexivity|left; reflexivity]].
    pose proof (grows_ignore h (mkED ((ESync h, true) :: e_log d) (e_orc d))) as G.
    destruct (o_ignore (Some h) _) as [[[u| |] o] d']; cbn [e_log] in G; [destruct G as [-> E]; auto|destruct G as [-> E]; auto|exact G].
  Qed.
  Lemma grows_use h us : forall o d, o = Some h \/ o = None -> forall l o' d', o_use us o d = (l, o', d') ->
    grows h o (e_log d) o' (e_log d') /\ length l = length us.
  Proof.
    induction us as [|u us IH]; intros o d Ho l o' d' E; cbn [o_use] in E.
    - injection E as <- <- <-. split; [apply g_refl|reflexivity].
    - destruct Ho as [->| ->].
      2:{ destruct u; cbn [o_wait o_ignore] in E; destruct (o_use us None d) as [[l2 o2] d2] eqn:E2; injection E as <- <- <-;
          destruct (IH _ _ (or_intror eq_refl) _ _ _ E2) as [G L]; (split; [exact G|cbn; lia]). }
      destruct u.
      + pose proof (grows_wait h d) as W. destruct (o_wait (Some h) d) as [[r o1] d1].
        destruct (o_use us o1 d1) as [[l2 o2] d2] eqn:E2. injection E as <- <- <-.
        destruct r as [u| |]; [destruct W as [-> W]|destruct W as [-> W]|destruct W].
        * destruct (IH _ _ (or_intror eq_refl) _ _ _ E2) as [G L]. split; [|cbn; lia]. eapply grows_trans; [|exact G]. rewrite W.
          eapply g_sync. apply g_des.
        * destruct (IH _ _ (or_introl eq_refl) _ _ _ E2) as [G L]. split; [|cbn; lia]. eapply grows_trans; [|exact G].
          destruct W as [->| ->]; [eapply g_sync; apply g_refl|eapply g_sync; eapply g_nodes; apply g_refl].
      + pose proof (grows_ignore h d) as W. destruct (o_ignore (Some h) d) as [[r o1] d1].
        destruct (o_use us o1 d1) as [[l2 o2] d2] eqn:E2. injection E as <- <- <-.
        destruct r as [u| |]; [destruct W as [-> W]|destruct W as [-> W]|destruct W].
        * destruct (IH _ _ (or_intror eq_refl) _ _ _ E2) as [G L]. split; [|cbn; lia]. eapply grows_trans; [|exact G]. rewrite W. apply g_des.
        * destruct (IH _ _ (or_introl eq_refl) _ _ _ E2) as [G L]. split; [|cbn; lia]. eapply grows_trans; [|exact G]. rewrite W.
          eapply g_nodes; apply g_refl.
  Qed.
  Lemma o_wait_destroy h d : exists d', (o_destroy fa (Some h) d = (ROk tt, d') /\ grows h (Some h) (e_log d) None (e_log d') \/
     o_destroy fa (Some h) d = (RTerminate, d')).
  Proof.
    cbn [o_destroy]. pose proof (grows_wait h d) as W. destruct (o_wait (Some h) d) as [[[u| |] o] d']; exists d'; [|right; reflexivity|destruct W].
    destruct fa; [right; reflexivity|]. left. split; [reflexivity|]. destruct W as [_ ->]. eapply g_sync. apply g_des.
  Qed.

  (** What has been added to the log. *)
  Definition tidy (h : nat) (l : list (ecall * bool)) : Prop :=
    exists l1, l = (EDestroy h, true) :: l1 /\ Forall (fun '(c, ok) => c = ESync h \/ c = EDestroy h /\ ok = false) l1.
  Lemma grows_tidy h o l o' l' : grows h o l o' l' -> o = Some h -> o' = None -> exists l1, tidy h l1 /\ l' = l1 ++ l.
  Proof.
    induction 1 as [o l|l ok o' l' G IH|l o' l' G IH|l]; intros E1 E2.
    - congruence.
    - destruct (IH eq_refl E2) as (l1 & (l2 & -> & F) & ->). exists (((EDestroy h, true) :: l2) ++ [(ESync h, ok)]). split.
      + exists (l2 ++ [(ESync h, ok)]). split; [reflexivity|]. apply Forall_app. split; [exact F|]. constructor; [left; reflexivity|constructor].
      + rewrite <- app_assoc. reflexivity.
    - destruct (IH eq_refl E2) as (l1 & (l2 & -> & F) & ->). exists (((EDestroy h, true) :: l2) ++ [(EDestroy h, false)]). split.
      + exists (l2 ++ [(EDestroy h, false)]). split; [reflexivity|]. apply Forall_app. split; [exact F|]. constructor; [right; auto|constructor].
      + rewrite <- app_assoc. reflexivity.
    - exists [(EDestroy h, true)]. split; [|reflexivity]. exists []. split; [reflexivity|constructor].
  Qed.

  Lemma o_life_any h us d r d' : o_life fa h us d = (r, d') ->
    match r with
    | ROk l => length l = length us /\ exists l1, tidy h l1 /\ e_log d' = l1 ++ (ERecord h, true) :: (ECreate h, true) :: e_log d
    | RThrow => e_log d' = (ECreate h, false) :: e_log d \/ exists l1, tidy h l1 /\ e_log d' = l1 ++ (ERecord h, false) :: (ECreate h, true) :: e_log d
    | RTerminate => True
    end.
  Proof.
    unfold o_life, o_create. unfold e_call at 1. destruct (e_orc d _); cbn [negb]; [|intros E; injection E as <- <-; left; reflexivity].
    unfold e_call. cbn [e_orc e_log length]. destruct (e_orc d (S (length (e_log d)))).
    - destruct (o_use us (Some h) _) as [[l o] d2] eqn:Eu. apply grows_use with (h := h) in Eu; [|auto]. destruct Eu as [G L]. cbn [e_log] in G.
      assert (Ho : o = Some h \/ o = None) by (inversion G; subst; auto; clear - G; remember (Some h) as s; induction G; subst; auto).
      destruct Ho as [->| ->].
      + destruct (o_wait_destroy h d2) as (d3 & [[E G2]|E]); rewrite E; intros E3; injection E3 as <- <-; [|exact I].
        split; [exact L|]. apply (grows_tidy h (Some h) _ None); auto. eapply grows_trans; eauto.
      + cbn [o_destroy]. intros E; injection E as <- <-. split; [exact L|]. apply (grows_tidy h (Some h) _ None); auto.
    - destruct (o_wait_destroy h (mkED ((ERecord h, false) :: (ECreate h, true) :: e_log d) (e_orc d))) as (d3 & [[E G2]|E]); rewrite E; intros E3; injection E3 as <- <-; [|exact I].
      right. apply (grows_tidy h (Some h) _ None); auto.
  Qed.

  (** Errors that stay. *)
  Lemma o_dead_use h us : forall d, (forall i, (length (e_log d) <= i)%nat -> e_orc d i = false) ->
    exists d', o_use us (Some h) d = (map (fun _ => true) us, Some h, d') /\ (forall i, (length (e_log d') <= i)%nat -> e_orc d' i = false).
  Proof.
    induction us as [|u us IH]; intros d H; [exists d; split; [reflexivity|exact H]|].
    assert (E0 : e_orc d (length (e_log d)) = false) by (apply H; lia).
    destruct u; cbn [o_use o_wait o_ignore]; unfold e_call; rewrite E0.
    - destruct (IH (mkED ((ESync h, false) :: e_log d) (e_orc d))) as (d' & E & F); [cbn [e_log e_orc length]; intros i Hi; apply H; lia|].
      rewrite E. exists d'. split; [reflexivity|exact F].
    - destruct (IH (mkED ((EDestroy h, false) :: e_log d) (e_orc d))) as (d' & E & F); [cbn [e_log e_orc length]; intros i Hi; apply H; lia|].
      rewrite E. exists d'. split; [reflexivity|exact F].
  Qed.
  Lemma o_sticky h us d n : (n = 2 \/ n = 1)%nat -> (forall i, (length (e_log d) + n <= i)%nat -> e_orc d i = false) -> (forall i, (i < length (e_log d) + n)%nat -> e_orc d i = true) ->
    fst (o_life fa h us d) = RTerminate.
  Proof.
    intros Hn Hf Ht. unfold o_life, o_create. unfold e_call at 1. rewrite Ht by lia. cbn [negb]. unfold e_call. cbn [e_log e_orc length].
    destruct Hn as [->| ->].
    - rewrite Ht by lia. destruct (o_dead_use h us (mkED ((ERecord h, true) :: (ECreate h, true) :: e_log d) (e_orc d))) as (d' & E & F).
      { cbn [e_log e_orc length]. intros i Hi. apply Hf. lia. }
      rewrite E. cbn [o_destroy o_wait]. unfold e_call. rewrite F by lia. reflexivity.
    - rewrite Hf by lia. cbn [o_destroy o_wait]. unfold e_call. cbn [e_log e_orc length]. rewrite Hf by lia. reflexivity.
  Qed.
End Events.

(** At most one call fails. *)
Section Once.
  Variable p : nat.
  Definition once (d : edrv) : Prop := forall i, i <> p -> e_orc d i = true.
  Lemma e_call_once c d : once d -> let '(ok, d') := e_call c d in once d' /\ length (e_log d') = S (length (e_log d)) /\
    (if ok then True else p = length (e_log d)).
  Proof.
    intros H. unfold e_call. split; [exact H|]. split; [reflexivity|]. destruct (e_orc d (length (e_log d))) eqn:E; [exact I|].
    destruct (Nat.eq_dec p (length (e_log d))) as [Ep|Ep]; [exact Ep|]. rewrite H in E by auto. discriminate.
  Qed.
  Lemma ignore_once h d : once d -> let '(r, o, d') := o_ignore (Some h) d in once d' /\ (length (e_log d) < length (e_log d'))%nat /\
    (r = ROk tt /\ o = None \/ o = Some h /\ (p < length (e_log d'))%nat /\ (length (e_log d) <= p)%nat).
  Proof.
    intros H. cbn [o_ignore]. pose proof (e_call_once (EDestroy h) d H) as C. destruct (e_call (EDestroy h) d) as [ok d1].
    destruct C as (C1 & C2 & C3). destruct ok; (split; [exact C1|split; [lia|]]); [left; auto|right; split; [reflexivity|lia]].
  Qed.
  Lemma wait_once h d : once d -> let '(r, o, d') := o_wait (Some h) d in once d' /\ (length (e_log d) < length (e_log d'))%nat /\
    (r = ROk tt /\ o = None \/ o = Some h /\ (p < length (e_log d'))%nat /\ (length (e_log d) <= p)%nat).
  Proof.
    intros H. cbn [o_wait]. pose proof (e_call_once (ESync h) d H) as C. destruct (e_call (ESync h) d) as [ok d1].
    destruct C as (C1 & C2 & C3). destruct ok; [|split; [exact C1|split; [lia|right; split; [reflexivity|lia]]]].
    pose proof (ignore_once h d1 C1) as G. destruct (o_ignore (Some h) d1) as [[r o] d2]. destruct G as (G1 & G2 & G3).
    split; [exact G1|]. split; [lia|]. destruct G3 as [G3|(G3 & G4 & G5)]; [left; exact G3|right; split; [exact G3|lia]].
  Qed.
  Lemma use_once h us : forall d, once d -> let '(l, o, d') := o_use us (Some h) d in once d' /\ (length (e_log d) <= length (e_log d'))%nat /\
    (us <> [] -> o = None \/ o = Some h /\ (p < length (e_log d'))%nat) /\ (o = None \/ o = Some h).
  Proof.
    induction us as [|u us IH]; intros d H; cbn [o_use]; [split; [exact H|split; [lia|split; [congruence|auto]]]|].
    assert (W : let '(r, o, d') := match u with UWait => o_wait (Some h) d | UIgnore => o_ignore (Some h) d end in once d' /\ (length (e_log d) < length (e_log d'))%nat /\
    (r = ROk tt /\ o = None \/ o = Some h /\ (p < length (e_log d'))%nat /\ (length (e_log d) <= p)%nat)) by (destruct u; [apply wait_once|apply ignore_once]; exact H).
    destruct (match u with UWait => o_wait (Some h) d | UIgnore => o_ignore (Some h) d end) as [[r o1] d1]. destruct W as (W1 & W2 & [[-> ->]|(-> & W3 & W4)]).
    - rewrite o_use_none. split; [exact W1|]. split; [lia|]. split; auto.
    - specialize (IH d1 W1). destruct (o_use us (Some h) d1) as [[l o] d2]. destruct IH as (I1 & I2 & I3 & I4).
      split; [exact I1|]. split; [lia|]. split; [|exact I4]. intros _. destruct I4 as [->| ->]; [auto|right; split; [reflexivity|lia]].
  Qed.
  Lemma destroy_once h d : once d -> (p < length (e_log d))%nat -> fst (o_destroy false (Some h) d) = ROk tt.
  Proof.
    intros H Hp. cbn [o_destroy]. pose proof (wait_once h d H) as W. destruct (o_wait (Some h) d) as [[r o] d1].
    destruct W as (_ & _ & [[-> _]|(_ & _ & W)]); [reflexivity|lia].
  Qed.
  Lemma life_once h us d : once d -> us <> [] -> fst (o_life false h us d) <> RTerminate.
  Proof.
    intros H Hu. unfold o_life, o_create.
    pose proof (e_call_once (ECreate h) d H) as C. destruct (e_call (ECreate h) d) as [ok d1]. destruct C as (C1 & C2 & C3).
    destruct ok; cbn [negb]; [|discriminate].
    pose proof (e_call_once (ERecord h) d1 C1) as R. destruct (e_call (ERecord h) d1) as [ok d2]. destruct R as (R1 & R2 & R3). destruct ok.
    - pose proof (use_once h us d2 R1) as U. destruct (o_use us (Some h) d2) as [[l o] d3]. destruct U as (U1 & _ & U3 & _).
      destruct (U3 Hu) as [->|[-> U4]]; [discriminate|]. pose proof (destroy_once h d3 U1 U4) as D.
      destruct (o_destroy false (Some h) d3) as [r d4]. cbn [fst] in D. subst r. discriminate.
    - pose proof (destroy_once h d2 R1 ltac:(lia)) as D. destruct (o_destroy false (Some h) d2) as [r d4]. cbn [fst] in D. subst r. discriminate.
  Qed.
End Once.
