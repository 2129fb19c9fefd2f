(** Threads with memory resources of their own on top of shared ones. *)
From Verif Require Import Base BaseLemmas Stack StackProofs Sync SyncStack SyncStackProofs SyncPrivate.
From Coq Require Import Permutation.

Lemma thread_calls_snoc t tr l : thread_calls t (tr ++ [l]) = thread_call t (thread_calls t tr) l.
Proof. unfold thread_calls. rewrite fold_left_app. reflexivity. Qed.

Definition is_free (e : uevent) : Prop := match e with UFree _ _ _ => True | _ => False end.
Lemma upstream_ok_frees n l : Forall is_free n -> upstream_ok l -> upstream_ok (n ++ l).
Proof. induction 1 as [|[| ] n H HF IH]; cbn [app upstream_ok is_free] in *; tauto. Qed.

Section Private.
  Variable P : nat -> list resource.
  Hypothesis HP : forall t, Forall correct (P t).

  (** The calls made by the threads to the synchronized resource are those of their own
      resources, which are used legally. *)
  Definition legal_private (tr : list (label scall sres)) : Prop :=
    forall before l after, tr = before ++ l :: after -> lg l = 0%nat ->
      match lc l with
      | SAlloc size align => exists top res, calls_ok top /\
          (upstream_ok (thread_calls (lt l) before) -> upstream_ok (UAlloc size align res :: thread_calls (lt l) before)) /\
          stacked (P (lt l)) top (UAlloc size align res :: thread_calls (lt l) before)
      | SFree b => exists top newer, calls_ok top /\ Forall is_free newer /\
          (stacked (P (lt l)) top (newer ++ UFree (bptr b) (bsize b) (balign b) :: thread_calls (lt l) before) \/
           ulive top = [] /\ destroyed (P (lt l)) top (newer ++ UFree (bptr b) (bsize b) (balign b) :: thread_calls (lt l) before))
      end.

  Lemma private_prefix tr l : legal_private (tr ++ [l]) -> legal_private tr.
  Proof. intros H b x a -> Hx. apply (H b x (a ++ [l])); [rewrite <- app_assoc; reflexivity|exact Hx]. Qed.

  Lemma private_call tr l : legal_private (tr ++ [l]) -> lg l = 0%nat -> upstream_ok (thread_calls (lt l) tr) ->
    match lc l with SAlloc size align => req_ok size align | SFree b => In b (ulive (thread_calls (lt l) tr)) end.
  Proof.
    intros H H0 U. specialize (H tr l [] eq_refl H0). destruct (lc l) as [size align|b].
    - destruct H as (top & res & C & O & S). specialize (O U). destruct (stack_correct _ (HP _) _ _ S C O) as (_ & K & _). apply K.
    - destruct H as (top & newer & C & F & S).
      assert (O : upstream_ok (newer ++ UFree (bptr b) (bsize b) (balign b) :: thread_calls (lt l) tr)) by (apply upstream_ok_frees; [exact F|exact U]).
      assert (K : calls_ok (newer ++ UFree (bptr b) (bsize b) (balign b) :: thread_calls (lt l) tr)).
      { destruct S as [S|(E & S)]; [apply (stack_correct _ (HP _) _ _ S C O)|apply (stack_released _ (HP _) _ _ S C E O)]. }
      apply calls_ok_app in K. destruct K as (K & _). destruct b; exact K.
  Qed.

  (** ** Blocks and their owners *)
  Fixpoint tagrm (t : nat) (b : block) (l : list (nat * block)) : list (nat * block) :=
    match l with
    | [] => []
    | (u, c) :: l' => if Nat.eqb u t then if block_eq_dec b c then l' else (u, c) :: tagrm t b l' else (u, c) :: tagrm t b l'
    end.
  Definition of (t : nat) (l : list (nat * block)) : list block := map snd (filter (fun x => Nat.eqb (fst x) t) l).

  Lemma of_tagrm t b l : of t (tagrm t b l) = remove1 b (of t l).
  Proof.
    unfold of. induction l as [|[u c] l IH]; [reflexivity|]. cbn [tagrm filter fst].
    destruct (Nat.eqb_spec u t) as [->|N].
    - cbn [map snd remove1]. destruct (block_eq_dec b c); [reflexivity|]. cbn [filter fst]. rewrite Nat.eqb_refl. cbn [map snd]. f_equal. exact IH.
    - cbn [filter fst]. destruct (Nat.eqb_spec u t); [contradiction|exact IH].
  Qed.
  Lemma of_tagrm_other t u b l : u <> t -> of u (tagrm t b l) = of u l.
  Proof.
    intros N. unfold of. induction l as [|[v c] l IH]; [reflexivity|]. cbn [tagrm].
    destruct (Nat.eqb_spec v t) as [->|M].
    - destruct (block_eq_dec b c); cbn [filter fst]; destruct (Nat.eqb_spec t u); try congruence; try reflexivity; exact IH.
    - cbn [filter fst]. destruct (Nat.eqb v u); cbn [map snd]; [f_equal|]; exact IH.
  Qed.
  Lemma tagrm_perm t b l : In b (of t l) -> Permutation (map snd l) (b :: map snd (tagrm t b l)).
  Proof.
    unfold of. induction l as [|[u c] l IH]; [intros []|]. cbn [tagrm filter fst]. destruct (Nat.eqb_spec u t) as [->|N]; cbn [map snd In].
    - destruct (block_eq_dec b c) as [->|D]; [reflexivity|]. intros [E|H]; [congruence|]. cbn [map snd]. rewrite perm_swap. constructor. auto.
    - intros H. rewrite perm_swap. constructor. auto.
  Qed.
  Lemma of_in t b l : In b (of t l) <-> In (t, b) l.
  Proof.
    unfold of. rewrite in_map_iff. split.
    - intros ([u c] & <- & H). apply filter_In in H. destruct H as (H & E). apply Nat.eqb_eq in E. cbn in E. subst. exact H.
    - intros H. exists (t, b). split; [reflexivity|]. apply filter_In. split; [exact H|apply Nat.eqb_refl].
  Qed.
  Lemma owners_disjoint (l : list (nat * block)) t u b c : pairwise_disjoint (map snd l) -> In (t, b) l -> In (u, c) l -> t <> u -> ~ overlap b c.
  Proof.
    induction l as [|[v d] l IH]; [intros _ []|]. cbn [map snd pairwise_disjoint In]. intros (H1 & H2) [E|Hb] [F|Hc] N.
    - congruence.
    - injection E as -> ->. apply H1. apply in_map_iff. exists (u, c). auto.
    - injection F as -> ->. intros O. apply overlap_sym in O. revert O. apply H1. apply in_map_iff. exists (t, b). auto.
    - auto.
  Qed.

  Variable R : resource.
  Variable rs : list resource.
  Hypothesis HR : correct R.
  Hypothesis HF : Forall correct rs.
  Variable u0 : rstate R * world.
  Hypothesis H0 : r_init R (fst u0) (snd u0).

  Lemma shared_facts tr s bottom : exec (shared_step R) u0 tr s -> legal_threads tr ->
    stacked rs (ulog (snd (ust s))) bottom -> upstream_ok bottom ->
    pairwise_disjoint (held tr) /\ Forall good_label tr /\
    forall b, In b (held tr) -> 0 < bptr b /\ bptr b + bsize b < 2 ^ 64 /\ (balign b | bptr b) /\ 0 < bsize b /\ exists u, In u (ulive bottom) /\ inside b u.
  Proof.
    intros HE HL HS HU. destruct (shared_stack R rs u0 tr s bottom HR HF H0 HE HL HS HU) as (A1 & A2 & A3 & pe & A4 & _).
    destruct (stack_correct (R :: rs) (Forall_cons _ HR HF) (calls tr) bottom) as (B1 & B2 & B3); auto.
    { cbn [stacked]. exists (fst (ust s)), (snd (ust s)). auto. }
    split; [pose proof (ulive_disjoint _ B1) as D; apply (pairwise_disjoint_perm _ _ A4), pairwise_disjoint_app in D; tauto|].
    split; [exact A3|]. intros b Hb. assert (I : In b (ulive (calls tr))) by (rewrite A4; apply in_or_app; auto).
    destruct (ulive_props _ _ B1 I) as (U1 & U2 & U3). pose proof (calls_live_pos _ _ A2 I). auto 6.
  Qed.

  Lemma legal_snoc tr l : legal_threads tr -> (lg l = 0%nat -> match lc l with SAlloc size align => req_ok size align | SFree b => In b (held tr) end) ->
    legal_threads (tr ++ [l]).
  Proof.
    intros H HL before x after E Hx. destruct after as [|y after _] using rev_ind.
    - apply app_inj_tail in E. destruct E as (E1 & E2). subst. apply HL. exact Hx.
    - rewrite app_comm_cons, app_assoc in E. apply app_inj_tail in E. destruct E as (E & _). exact (H _ _ _ E Hx).
  Qed.

  Lemma private_inv tr s : exec (shared_step R) u0 tr s -> legal_private tr -> below rs (ulog (snd (ust s))) ->
    legal_threads tr /\ (forall t, upstream_ok (thread_calls t tr)) /\
    exists owned, Permutation (held tr) (map snd owned) /\ forall t, ulive (thread_calls t tr) = of t owned.
  Proof.
    intros H. induction H as [|tr s l s' H IH ST]; intros HL HB.
    - split; [intros [|] ? ? E; discriminate E|]. split; [intros t; exact Logic.I|]. exists []. split; [reflexivity|reflexivity].
    - destruct (step_log R HR _ _ _ ST) as (m & Hm).
      assert (HB0 : below rs (ulog (snd (ust s)))) by (apply (below_tail rs HF m); rewrite <- Hm; exact HB).
      destruct (IH (private_prefix _ _ HL) HB0) as (A1 & A2 & owned & A3 & A4). clear IH.
      assert (IN : forall t b, In b (ulive (thread_calls t tr)) -> In b (held tr)).
      { intros t b Hb. rewrite A3. rewrite A4, of_in in Hb. apply in_map_iff. exists (t, b). auto. }
      assert (A1' : legal_threads (tr ++ [l])).
      { apply legal_snoc; [exact A1|]. intros E. pose proof (private_call _ _ HL E (A2 _)) as K. destruct (lc l); [exact K|]. eapply IN; exact K. }
      split; [exact A1'|].
      assert (HE' : exec (shared_step R) u0 (tr ++ [l]) s') by (eapply exec_snoc; eassumption).
      destruct HB as (bo & B1 & B2). destruct (shared_facts _ _ _ HE' A1' B1 B2) as (F1 & F2 & F3).
      apply Forall_app in F2. destruct F2 as (_ & F2). apply Forall_inv in F2.
      pose proof (private_call _ _ HL) as PC.
      assert (SAME : hold (held tr) l = held tr -> (forall t, thread_call t (thread_calls t tr) l = thread_calls t tr) ->
          (forall t, upstream_ok (thread_calls t (tr ++ [l]))) /\
          exists owned, Permutation (held (tr ++ [l])) (map snd owned) /\ forall t, ulive (thread_calls t (tr ++ [l])) = of t owned).
      { intros E1 E2. split; [intros t; rewrite thread_calls_snoc, E2; apply A2|]. exists owned. rewrite held_snoc, E1. split; [exact A3|].
        intros t. rewrite thread_calls_snoc, E2. apply A4. }
      destruct ST as [s t c Q|s t c Q Q1 L|s t c Q Q1|s t c u' r Q Q1 E|s t c r Q Q1 W|s t c r Q Q1 W];
        cbn [lt lg lc lr] in *; unfold good_label in F2; cbn [lc lr] in F2;
        try (apply SAME; [reflexivity|intros v; unfold thread_call; cbn [lt lg]; destruct (Nat.eqb t v); reflexivity]).
      + destruct c as [sz al|b].
        * apply SAME; [reflexivity|]. intros v; unfold thread_call; cbn [lt lg lc]; destruct (Nat.eqb t v); reflexivity.
        * specialize (PC eq_refl (A2 t)). split.
          -- intros v. rewrite thread_calls_snoc. unfold thread_call. cbn [lt lg lc lr]. destruct (Nat.eqb t v); [cbn [upstream_ok]|]; apply A2.
          -- exists (tagrm t b owned). split.
             ++ rewrite held_snoc. unfold hold. cbn [lg lc lr]. apply (Permutation_cons_inv (a := b)).
                rewrite <- (remove1_perm _ _ (IN _ _ PC)), A3. apply tagrm_perm. rewrite <- A4. exact PC.
             ++ intros v. rewrite thread_calls_snoc. unfold thread_call. cbn [lt lg lc lr]. destruct (Nat.eqb_spec t v) as [<-|N].
                ** cbn [ulive]. rewrite of_tagrm, A4. destruct b; reflexivity.
                ** rewrite of_tagrm_other by congruence. apply A4.
      + destruct c as [sz al|b].
        * destruct F2 as [(p & ->)| ->].
          -- rewrite held_snoc in F1, F3. unfold hold in F1, F3. cbn [lg lc lr] in F1, F3. split.
             ++ intros v. rewrite thread_calls_snoc. unfold thread_call. cbn [lt lg lc lr]. destruct (Nat.eqb_spec t v) as [<-|N]; [|apply A2].
                cbn [upstream_ok]. destruct (F3 _ (or_introl eq_refl)) as (G1 & G2 & G3 & _). cbn [bptr bsize balign] in G1, G2, G3.
                repeat split; auto. intros c Hc. cbn [pairwise_disjoint] in F1. apply F1. eapply IN; exact Hc.
             ++ exists ((t, mkBlock p sz al) :: owned). rewrite held_snoc. unfold hold. cbn [lg lc lr map snd]. split; [constructor; exact A3|].
                intros v. rewrite thread_calls_snoc. unfold thread_call, of. cbn [lt lg lc lr filter fst]. destruct (Nat.eqb_spec t v) as [<-|N].
                ** cbn [ulive map snd]. f_equal. apply A4.
                ** apply A4.
          -- split.
             ++ intros v. rewrite thread_calls_snoc. unfold thread_call. cbn [lt lg lc lr]. destruct (Nat.eqb t v); [cbn [upstream_ok]|]; apply A2.
             ++ exists owned. rewrite held_snoc. split; [exact A3|]. intros v. rewrite thread_calls_snoc. unfold thread_call. cbn [lt lg lc lr].
                destruct (Nat.eqb t v); [cbn [ulive]|]; apply A4.
        * apply SAME; [reflexivity|]. intros v; unfold thread_call; cbn [lt lg lc]; destruct (Nat.eqb t v); reflexivity.
  Qed.

  (** The blocks of the users of all threads. *)
  Theorem private_thm tr s bottom : exec (shared_step R) u0 tr s -> legal_private tr ->
    stacked rs (ulog (snd (ust s))) bottom -> upstream_ok bottom ->
    legal_threads tr /\
    (forall t top, calls_ok top -> stacked (P t) top (thread_calls t tr) ->
      upstream_ok top /\ calls_ok (thread_calls t tr) /\
      (forall b, In b (ulive top) -> exists u, In u (ulive bottom) /\ inside b u) /\
      forall t' top' b c, t <> t' -> calls_ok top' -> stacked (P t') top' (thread_calls t' tr) ->
        In b (ulive top) -> In c (ulive top') -> ~ overlap b c).
  Proof.
    intros HE HL HS HU. destruct (private_inv tr s HE HL) as (A1 & A2 & owned & A3 & A4); [exists bottom; auto|].
    split; [exact A1|].
    destruct (shared_facts _ _ _ HE A1 HS HU) as (F1 & _ & F3).
    assert (K : forall t top, calls_ok top -> stacked (P t) top (thread_calls t tr) ->
      upstream_ok top /\ calls_ok (thread_calls t tr) /\ forall b, In b (ulive top) -> exists u, In (t, u) owned /\ inside b u).
    { intros t top C S. destruct (stack_correct _ (HP t) _ _ S C (A2 t)) as (B1 & B2 & B3). split; [exact B1|split; [exact B2|]].
      intros b Hb. destruct (B3 b Hb) as (u & Hu & Hi). exists u. split; [|exact Hi]. apply of_in. rewrite <- A4. exact Hu. }
    assert (IN : forall t u, In (t, u) owned -> In u (held tr)) by (intros t u H; rewrite A3; apply in_map_iff; exists (t, u); auto).
    intros t top C S. destruct (K t top C S) as (K1 & K2 & K3). split; [exact K1|split; [exact K2|split]].
    - intros b Hb. destruct (K3 b Hb) as (u & Hu & Iu). destruct (F3 u (IN _ _ Hu)) as (_ & _ & _ & _ & w & Hw & Iw).
      exists w. split; [exact Hw|]. intros x Hx. auto.
    - intros t' top' b c N C' S' Hb Hc. destruct (K t' top' C' S') as (_ & _ & K4).
      destruct (K3 b Hb) as (u & Hu & Iu). destruct (K4 c Hc) as (v & Hv & Iv). apply (inside_not_overlap b u c v Iu Iv).
      apply (owners_disjoint owned t t'); auto. eapply pairwise_disjoint_perm; [exact A3|exact F1].
  Qed.

  (** All threads are done, their resources and then the shared ones are destroyed. *)
  Theorem private_released tr s bottom : exec (shared_step R) u0 tr s -> legal_private tr ->
    (forall t, phase (th s t) = 0%nat) ->
    (forall t, ulive (thread_calls t tr) = [] \/ exists top, calls_ok top /\ ulive top = [] /\ destroyed (P t) top (thread_calls t tr)) ->
    destroyed rs (ulog (r_destroy R (fst (ust s)) (snd (ust s)))) bottom -> upstream_ok bottom ->
    calls_ok bottom /\ ulive bottom = [].
  Proof.
    intros HE HL HI HT HD HU.
    destruct (destroyed_before rs HF _ _ HD) as (b1 & m1 & M1 & M2). pose proof HR as (Inv & C).
    destruct (k_dlog _ _ C (fst (ust s)) (snd (ust s))) as (n & Hn). rewrite Hn in M1.
    destruct (stacked_tail rs HF _ _ _ M1) as (b2 & m2 & N1 & N2).
    assert (U2 : upstream_ok b2).
    { rewrite M2, N2 in HU. apply upstream_ok_app in HU. apply upstream_ok_app in HU. exact HU. }
    destruct (private_inv tr s HE HL) as (A1 & A2 & owned & A3 & A4); [exists b2; auto|].
    assert (E : held tr = []).
    { destruct owned as [|[t b] owned]; [apply Permutation_sym, Permutation_nil in A3; exact A3|]. exfalso.
      assert (L : ulive (thread_calls t tr) = []).
      { destruct (HT t) as [L|(top & T1 & T2 & T3)]; [exact L|]. apply (stack_released _ (HP t) _ _ T3 T1 T2 (A2 t)). }
      rewrite A4 in L.
      assert (X : In b (of t ((t, b) :: owned))) by (apply of_in; left; reflexivity). rewrite L in X. destruct X. }
    exact (shared_released R rs u0 tr s bottom HR HF H0 HE A1 HI E HD HU).
  Qed.
End Private.

(** ** The calls of a thread are those that the shared resource served for it *)
Definition own_labels (t : nat) (tr : list (label scall sres)) : list (label scall sres) := filter (fun l => Nat.eqb (lt l) t) tr.

Definition call_event (c : scall) (r : option sres) : uevent :=
  match c, r with
  | SAlloc size align, Some (RAlloc (Ret p)) => UAlloc size align (Some p)
  | SAlloc size align, _ => UAlloc size align None
  | SFree b, _ => UFree (bptr b) (bsize b) (balign b)
  end.

Definition in_step (x : tstate scall sres) (mine served : list uevent) : Prop :=
  match phase x with
  | 0%nat => mine = served
  | 1%nat | 2%nat | 3%nat => exists c, cur x = Some c /\ mine = match c with SAlloc _ _ => served | SFree _ => call_event c None :: served end
  | _ => exists c r, cur x = Some c /\ res x = Some r /\
      match c with SAlloc _ _ => served = call_event c (Some r) :: mine | SFree _ => mine = served end
  end.

Lemma own_calls R u0 tr s : exec (shared_step R) u0 tr s -> forall t, in_step (th s t) (thread_calls t tr) (calls (own_labels t tr)).
Proof.
  intros H. induction H as [|tr s l s' H IH ST]; intros v; [reflexivity|].
  rewrite thread_calls_snoc. unfold own_labels. rewrite filter_app. cbn [filter]. specialize (IH v).
  fold (own_labels v tr). destruct (Nat.eqb_spec (lt l) v) as [E|N].
  - rewrite calls_snoc. unfold thread_call. rewrite E, Nat.eqb_refl.
    destruct ST as [s t c Q|s t c Q Q1 L|s t c Q Q1|s t c u' r Q Q1 W|s t c r Q Q1 W|s t c r Q Q1 W]; cbn [lt] in E; subst v;
      unfold in_step in *; rewrite Q in IH; cbn [lt lg lc lr th]; unfold set; rewrite Nat.eqb_refl; cbn [phase cur res]; unfold call_of; cbn [lg lc lr app].
    + exists c. split; [reflexivity|]. destruct c; [exact IH|]. rewrite IH. reflexivity.
    + destruct IH as (c' & C & M). rewrite Q1 in C. injection C as <-. exists c. auto.
    + destruct IH as (c' & C & M). rewrite Q1 in C. injection C as <-. exists c. auto.
    + destruct IH as (c' & C & M). rewrite Q1 in C. injection C as <-. exists c, r. split; [reflexivity|]. split; [reflexivity|].
      destruct c as [sz al|b]; cbn [call_event].
      * rewrite M. destruct r as [[p|e|]|]; reflexivity.
      * rewrite M. reflexivity.
    + destruct IH as (c' & r' & C & D & M). rewrite Q1 in C. rewrite W in D. injection C as <-. injection D as <-. exists c, r. auto.
    + destruct IH as (c' & r' & C & D & M). rewrite Q1 in C. rewrite W in D. injection C as <-. injection D as <-.
      destruct c as [sz al|b]; [rewrite M; cbn [call_event]; destruct r as [[p|e|]|]; reflexivity|exact M].
  - rewrite app_nil_r. unfold thread_call. destruct (Nat.eqb_spec (lt l) v); [contradiction|].
    assert (T : th s' v = th s v).
    { destruct ST; cbn [lt] in N; cbn [th]; unfold set; destruct (Nat.eqb_spec v t); congruence. }
    rewrite T. exact IH.
Qed.
