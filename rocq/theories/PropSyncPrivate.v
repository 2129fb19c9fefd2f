(** Threads with memory resources of their own on top of a shared stack: C146. *)
From Verif Require Import Base BaseLemmas Stack StackProofs StackExamples PropStack Sync SyncStack SyncStackProofs
  SyncPrivate SyncPrivateProofs PropSyncStack.

(** The thread [t] has the stack [P t] of resources of its own (a new one at the beginning).
    Whenever it calls the synchronized resource, then because these resources make this call
    when they are used legally, or because they are destroyed when nothing is allocated from
    them.  [res] is what they would do next with an answer that a correct resource can give;
    a deallocation may be followed by others before the resources are done. *)
Definition private_legal (P : nat -> list layer) (tr : list (label scall sres)) : Prop :=
  forall before l after, tr = before ++ l :: after -> lg l = 0%nat ->
    match lc l with
    | SAlloc size align => exists top res, legal_calls top /\
        (upstream_ok (thread_calls (lt l) before) -> upstream_ok (UAlloc size align res :: thread_calls (lt l) before)) /\
        stacked (map layer_res (P (lt l))) top (UAlloc size align res :: thread_calls (lt l) before)
    | SFree b => exists top newer, legal_calls top /\
        Forall (fun e => match e with UFree _ _ _ => True | UAlloc _ _ _ => False end) newer /\
        (stacked (map layer_res (P (lt l))) top (newer ++ UFree (bptr b) (bsize b) (balign b) :: thread_calls (lt l) before) \/
         ulive top = [] /\
         destroyed (map layer_res (P (lt l))) top (newer ++ UFree (bptr b) (bsize b) (balign b) :: thread_calls (lt l) before))
    end.

Lemma private_legal_eq P tr : private_legal P tr -> legal_private (fun t => map layer_res (P t)) tr.
Proof.
  intros H before l after E Hl. specialize (H before l after E Hl). destruct (lc l).
  - destruct H as (top & res & C & H). exists top, res. rewrite <- legal_calls_eq. auto.
  - destruct H as (top & newer & C & F & H). exists top, newer. rewrite <- legal_calls_eq. split; [exact C|]. split; [exact F|exact H].
Qed.

Lemma private_correct (P : nat -> list layer) : (forall t, Forall layer_ok (P t)) -> forall t, Forall correct (map layer_res (P t)).
Proof. intros H t. apply (layers_correct _ (H t)). Qed.

(** The threads use the synchronized resource as C141 demands, whatever the interleaving. *)
Theorem C146_use : forall l ls P u0 tr s bottom, layer_ok l -> Forall layer_ok ls -> (forall t : nat, Forall layer_ok (P t)) ->
  r_init (layer_res l) (fst u0) (snd u0) -> exec (shared_step (layer_res l)) u0 tr s -> private_legal P tr ->
  stacked (map layer_res ls) (ulog (snd (ust s))) bottom -> upstream_ok bottom ->
  threads_legal tr /\ forall t, upstream_ok (thread_calls t tr).
Proof.
  intros l ls P u0 tr s bottom Hl HL HP HI HE HT HS HU. destruct (layers_correct _ HL) as (K & _).
  destruct (private_inv _ (private_correct P HP) _ _ (layer_correct l Hl) K u0 HI tr s HE (private_legal_eq _ _ HT)) as (A1 & A2 & _);
    [exists bottom; auto|]. split; [exact A1|exact A2].
Qed.
Print Assumptions C146_use.

(** What the users of the resources of the threads hold. *)
Theorem C146_blocks : forall l ls P u0 tr s bottom, layer_ok l -> Forall layer_ok ls -> (forall t : nat, Forall layer_ok (P t)) ->
  r_init (layer_res l) (fst u0) (snd u0) -> exec (shared_step (layer_res l)) u0 tr s -> private_legal P tr ->
  stacked (map layer_res ls) (ulog (snd (ust s))) bottom -> upstream_ok bottom ->
  forall t top, legal_calls top -> stacked (map layer_res (P t)) top (thread_calls t tr) ->
  pairwise_disjoint (ulive top) /\ legal_calls (thread_calls t tr) /\
  (forall b, In b (ulive top) -> (balign b | bptr b) /\ 0 < bptr b /\
     exists u, In u (ulive bottom) /\ bptr u <= bptr b /\ bptr b + bsize b <= bptr u + bsize u) /\
  forall t' top' b c, t <> t' -> legal_calls top' -> stacked (map layer_res (P t')) top' (thread_calls t' tr) ->
    In b (ulive top) -> In c (ulive top') -> bptr b + bsize b <= bptr c \/ bptr c + bsize c <= bptr b.
Proof.
  intros l ls P u0 tr s bottom Hl HL HP HI HE HT HS HU t top C S. destruct (layers_correct _ HL) as (K & _).
  rewrite legal_calls_eq in *.
  destruct (private_thm _ (private_correct P HP) _ _ (layer_correct l Hl) K u0 HI tr s bottom HE (private_legal_eq _ _ HT) HS HU) as (_ & A).
  destruct (A t top C S) as (A1 & A2 & A3 & A4). split; [apply ulive_disjoint; exact A1|]. split; [exact A2|]. split.
  - intros b Hb. destruct (ulive_props _ _ A1 Hb) as (U1 & _ & U3). split; [exact U3|]. split; [exact U1|].
    destruct (A3 b Hb) as (u & Hu & Iu). exists u. split; [exact Hu|]. apply inside_iff in Iu; [lia|exact (calls_live_pos _ _ C Hb)].
  - intros t' top' b c N C' S' Hb Hc. rewrite legal_calls_eq in C'. pose proof (A4 t' top' b c N C' S' Hb Hc) as D.
    pose proof (calls_live_pos _ _ C Hb). pose proof (calls_live_pos _ _ C' Hc).
    destruct (Z_le_gt_dec (bptr b + bsize b) (bptr c)); [left; assumption|].
    destruct (Z_le_gt_dec (bptr c + bsize c) (bptr b)); [right; assumption|]. exfalso. apply D.
    exists (Z.max (bptr b) (bptr c)). unfold in_block. lia.
Qed.
Print Assumptions C146_blocks.

(** No call of the resource on top of the stack of a thread is undefined. *)
Theorem C146_defined : forall l ls P u0 tr s bottom, layer_ok l -> Forall layer_ok ls -> (forall t : nat, Forall layer_ok (P t)) ->
  r_init (layer_res l) (fst u0) (snd u0) -> exec (shared_step (layer_res l)) u0 tr s -> private_legal P tr ->
  stacked (map layer_res ls) (ulog (snd (ust s))) bottom -> upstream_ok bottom ->
  forall t k ks top x w, P t = k :: ks -> runs (layer_res k) top x w -> legal_calls top ->
  (forall size align r x' w', 0 < size <= 2 ^ 63 -> pow2 align -> align <= 16 ->
     r_alloc (layer_res k) x w size align = (r, x', w') -> stacked (map layer_res ks) (ulog w') (thread_calls t tr) ->
     (exists p, r = Ret p) \/ r = Throw bad_alloc) /\
  (forall b, In b (ulive top) -> stacked (map layer_res ks) (ulog w) (thread_calls t tr) ->
     exists x' w', r_free (layer_res k) x w (bptr b) (bsize b) (balign b) = (Ret tt, x', w')).
Proof.
  intros l ls P u0 tr s bottom Hl HL HP HI HE HT HS HU t k ks top x w E HR C.
  destruct (C146_use l ls P u0 tr s bottom Hl HL HP HI HE HT HS HU) as (_ & A).
  pose proof (HP t) as F. rewrite E in F. pose proof (Forall_inv F) as F1. apply Forall_inv_tail in F.
  destruct (C140_defined k ks top x w F1 F HR C) as (D1 & D2). split.
  - intros size align r x' w' H1 H2 H3 H4 H5. exact (D1 _ _ _ _ _ _ H1 H2 H3 H4 H5 (A t)).
  - intros b Hb H5. exact (D2 _ _ Hb H5 (A t)).
Qed.
Print Assumptions C146_defined.

(** When the threads are done, with nothing allocated and their resources destroyed,
    destroying the shared stack returns all memory to the lowest resource.  (A thread whose
    resources could not be constructed holds nothing.) *)
Theorem C146_released : forall l ls P u0 tr s bottom, layer_ok l -> Forall layer_ok ls -> (forall t : nat, Forall layer_ok (P t)) ->
  r_init (layer_res l) (fst u0) (snd u0) -> exec (shared_step (layer_res l)) u0 tr s -> private_legal P tr ->
  (forall t, phase (th s t) = 0%nat) ->
  (forall t, ulive (thread_calls t tr) = [] \/
     exists top, legal_calls top /\ ulive top = [] /\ destroyed (map layer_res (P t)) top (thread_calls t tr)) ->
  destroyed (map layer_res ls) (ulog (r_destroy (layer_res l) (fst (ust s)) (snd (ust s)))) bottom ->
  upstream_ok bottom -> legal_calls bottom /\ ulive bottom = [].
Proof.
  intros l ls P u0 tr s bottom Hl HL HP HI HE HT HJ HG HD HU. destruct (layers_correct _ HL) as (K & _).
  rewrite legal_calls_eq.
  apply (private_released _ (private_correct P HP) _ _ (layer_correct l Hl) K u0 HI tr s bottom HE (private_legal_eq _ _ HT) HJ); auto.
  intros t. destruct (HG t) as [G|(top & G1 & G2)]; [left; exact G|right]. exists top. rewrite <- legal_calls_eq. auto.
Qed.
Print Assumptions C146_released.

(** The calls of a thread between two of its calls: what the shared stack served for it. *)
Theorem C146_history : forall l u0 tr s t, exec (shared_step (layer_res l)) u0 tr s -> phase (th s t) = 0%nat ->
  thread_calls t tr = calls (filter (fun e => Nat.eqb (lt e) t) tr).
Proof.
  intros l u0 tr s t HE H0. pose proof (own_calls _ _ _ _ HE t) as H. unfold in_step in H. rewrite H0 in H. exact H.
Qed.
Print Assumptions C146_history.

(** ** An example: the first thread has a binary page resource, the others an identity
    resource; the shared stack is a binary page resource on a contiguous resource of 4 MiB.
    The calls of the two threads interleave. *)
Definition pv_P (t : nat) : list layer := match t with O => [LBinaryPage] | _ => [LIdentity] end.
Definition pv_A := SAlloc (2 ^ 16) 16.
Definition pv_B := SAlloc 200 8.
Definition pv_b : Z := stk_base + 2 ^ 20.
(** What the shared resource asks for, oldest call first. *)
Definition pv_pages : list uevent := [UAlloc (2 ^ 20) 16 (Some stk_base); UAlloc (2 ^ 16) 16 (Some pv_b)].
Definition pv_back : list uevent := [UFree stk_base (2 ^ 20) 16; UFree pv_b (2 ^ 16) 16].
Definition pv_u0 : rstate (layer_res LBinaryPage) * world :=
  (Buddy.init, mkWorld [] (answers pv_pages)).
Definition pv_run (sched : list (nat * scall)) :=
  match schedule (layer_res LBinaryPage) sched [] (init pv_u0) with Some x => x | None => ([], init pv_u0) end.
Definition pv_sched : list (nat * scall) :=
  [(0, pv_A); (1, pv_B); (0, pv_A); (0, pv_A); (0, pv_A); (0, pv_A); (1, pv_B); (0, pv_A);
   (1, pv_B); (1, pv_B); (1, pv_B); (1, pv_B)]%nat.
Definition pv_FA := SFree (mkBlock stk_base (2 ^ 16) 16).
Definition pv_FB := SFree (mkBlock pv_b 200 8).
Definition pv_done : list (nat * scall) :=
  (pv_sched ++ [(1, pv_FB); (0, pv_FA); (0, pv_FA); (0, pv_FA); (0, pv_FA); (0, pv_FA); (1, pv_FB); (0, pv_FA);
   (1, pv_FB); (1, pv_FB); (1, pv_FB); (1, pv_FB)])%nat.

Lemma pv_exec sched : exec (shared_step (layer_res LBinaryPage)) pv_u0 (fst (pv_run sched)) (snd (pv_run sched)).
Proof.
  unfold pv_run. destruct (schedule _ sched [] (init pv_u0)) as [[tr s]|] eqn:E; [|apply exec_nil].
  eapply schedule_exec; [apply exec_nil|exact E].
Qed.

(** Checking the labels one after the other. *)
Lemma private_legal_nth P tr : (forall i l, nth_error tr i = Some l -> private_legal P (firstn i tr) -> private_legal P (firstn i tr ++ [l])) ->
  private_legal P tr.
Proof.
  intros H. assert (G : forall n, private_legal P (firstn n tr)).
  { induction n as [|n IH]; [intros [|] ? ? E; discriminate E|]. destruct (nth_error tr n) as [l|] eqn:E.
    - replace (firstn (S n) tr) with (firstn n tr ++ [l]); [auto|].
      clear -E. revert n E. induction tr as [|x tr IH]; intros [|n] E; cbn in *; try discriminate; [injection E as ->; reflexivity|f_equal; auto].
    - apply nth_error_None in E. rewrite firstn_all2 by lia. rewrite firstn_all2 in IH by lia. exact IH. }
  specialize (G (length tr)). rewrite firstn_all in G. exact G.
Qed.
Lemma private_legal_snoc P tr l : private_legal P tr ->
  (lg l = 0%nat -> match lc l with
    | SAlloc size align => exists top res, legal_calls top /\
        (upstream_ok (thread_calls (lt l) tr) -> upstream_ok (UAlloc size align res :: thread_calls (lt l) tr)) /\
        stacked (map layer_res (P (lt l))) top (UAlloc size align res :: thread_calls (lt l) tr)
    | SFree b => exists top newer, legal_calls top /\
        Forall (fun e => match e with UFree _ _ _ => True | UAlloc _ _ _ => False end) newer /\
        (stacked (map layer_res (P (lt l))) top (newer ++ UFree (bptr b) (bsize b) (balign b) :: thread_calls (lt l) tr) \/
         ulive top = [] /\
         destroyed (map layer_res (P (lt l))) top (newer ++ UFree (bptr b) (bsize b) (balign b) :: thread_calls (lt l) tr))
    end) -> private_legal P (tr ++ [l]).
Proof.
  intros H HL before x after E Hx. destruct after as [|y after _] using rev_ind.
  - apply app_inj_tail in E. destruct E as (E1 & E2). subst. apply HL. exact Hx.
  - rewrite app_comm_cons, app_assoc in E. apply app_inj_tail in E. destruct E as (E & _). exact (H _ _ _ E Hx).
Qed.

(** What the users of the two resources do. *)
Definition pv_top0 : list uevent := [UAlloc 100 16 (Some stk_base)].
Definition pv_top1 : list uevent := [UAlloc 200 8 (Some pv_b)].
Lemma pv_legal0 : legal_calls pv_top0.
Proof. cbn [legal_calls pv_top0]. repeat split; try lia. exists 4. split; [lia|reflexivity]. Qed.
Lemma pv_legal1 : legal_calls pv_top1.
Proof. cbn [legal_calls pv_top1]. repeat split; try lia. exists 3. split; [lia|reflexivity]. Qed.
Lemma pv_legal0d : legal_calls (UFree stk_base 100 16 :: pv_top0).
Proof. cbn [legal_calls]. split; [left; reflexivity|exact pv_legal0]. Qed.
Lemma pv_legal1d : legal_calls (UFree pv_b 200 8 :: pv_top1).
Proof. cbn [legal_calls]. split; [left; reflexivity|exact pv_legal1]. Qed.
Lemma pv_stacked0 : stacked (map layer_res [LBinaryPage]) pv_top0 [UAlloc (2 ^ 16) 16 (Some stk_base)].
Proof.
  cbn [map layer_res stacked].
  destruct (replay_layer binary_page_res pv_top0 Buddy.init (mkWorld [] (answers [UAlloc (2 ^ 16) 16 (Some stk_base)])))
    with (l := [UAlloc (2 ^ 16) 16 (Some stk_base)]) as (x & w & R & E); [split; reflexivity|vm_compute; reflexivity|].
  exists x, w. split; [exact R|exact E].
Qed.
Lemma pv_destroyed0 : destroyed (map layer_res [LBinaryPage]) (UFree stk_base 100 16 :: pv_top0)
  [UFree stk_base (2 ^ 16) 16; UAlloc (2 ^ 16) 16 (Some stk_base)].
Proof.
  cbn [map layer_res destroyed].
  destruct (replay_destroyed binary_page_res (rev (UFree stk_base 100 16 :: pv_top0)) Buddy.init (mkWorld [] (answers [UAlloc (2 ^ 16) 16 (Some stk_base)])))
    with (l := [UFree stk_base (2 ^ 16) 16; UAlloc (2 ^ 16) 16 (Some stk_base)]) as (x & w & R & E); [split; reflexivity|vm_compute; reflexivity|].
  exists x, w. split; [exact R|exact E].
Qed.
Lemma pv_stacked1 : stacked (map layer_res [LIdentity]) pv_top1 pv_top1.
Proof.
  cbn [map layer_res stacked].
  destruct (replay_layer identity_res pv_top1 tt (mkWorld [] (answers pv_top1)))
    with (l := pv_top1) as (x & w & R & E); [reflexivity|vm_compute; reflexivity|].
  exists x, w. split; [exact R|exact E].
Qed.
Lemma pv_stacked1d : stacked (map layer_res [LIdentity]) (UFree pv_b 200 8 :: pv_top1) (UFree pv_b 200 8 :: pv_top1).
Proof.
  cbn [map layer_res stacked].
  destruct (replay_layer identity_res (rev (UFree pv_b 200 8 :: pv_top1)) tt (mkWorld [] (answers pv_top1)))
    with (l := UFree pv_b 200 8 :: pv_top1) as (x & w & R & E); [reflexivity|vm_compute; reflexivity|].
  exists x, w. split; [exact R|exact E].
Qed.
Lemma pv_destroyed1 : destroyed (map layer_res [LIdentity]) (UFree pv_b 200 8 :: pv_top1) (UFree pv_b 200 8 :: pv_top1).
Proof. destruct pv_stacked1d as (x & w & R & E). exists x, w. split; [exact R|exact E]. Qed.

Lemma pv_ok0 : upstream_ok (UAlloc (2 ^ 16) 16 (Some stk_base) :: []).
Proof. apply upstream_okb_ok. vm_compute. reflexivity. Qed.
Lemma pv_ok1 : upstream_ok pv_top1.
Proof. apply upstream_okb_ok. vm_compute. reflexivity. Qed.

Lemma pv_private : private_legal pv_P (fst (pv_run pv_done)).
Proof.
  remember (fst (pv_run pv_done)) as tr eqn:E. vm_compute in E. subst tr. apply private_legal_nth. intros i l Hi HP.
  do 24 (try (destruct i as [|i]; [cbn [nth_error] in Hi; injection Hi as <-; apply private_legal_snoc; [exact HP|];
    cbn [lg]; intros Hz; try discriminate Hz; clear HP Hz; cbn [lc lt firstn]|])).
  - exists pv_top0, (Some stk_base). split; [exact pv_legal0|]. split; [intros _; exact pv_ok0|exact pv_stacked0].
  - exists pv_top1, (Some pv_b). split; [exact pv_legal1|]. split; [intros _; exact pv_ok1|exact pv_stacked1].
  - exists (UFree pv_b 200 8 :: pv_top1), []. split; [exact pv_legal1d|]. split; [constructor|]. left. exact pv_stacked1d.
  - exists (UFree stk_base 100 16 :: pv_top0), []. split; [exact pv_legal0d|]. split; [constructor|]. right.
    split; [reflexivity|exact pv_destroyed0].
  - do 24 (cbn [nth_error] in Hi). destruct i; discriminate Hi.
Qed.

Lemma pv_lowest : stacked (map layer_res [LContiguous (2 ^ 22)]) (rev pv_pages) (rev stk4).
Proof.
  cbn [map layer_res stacked].
  destruct (replay_layer (contiguous_res (2 ^ 22)) pv_pages (Contiguous.mkC (2 ^ 22) stk_base stk_base)
    (mkWorld (rev stk4) (answers stk4))) with (l := rev stk4) as (s4 & w4 & R4 & E4);
    [exists (mkWorld [] (answers stk4)); split; reflexivity|vm_compute; reflexivity|].
  exists s4, w4. split; [exact R4|exact E4].
Qed.

Example C146_blocks_ex :
  layer_ok LBinaryPage /\ Forall layer_ok [LContiguous (2 ^ 22)] /\ (forall t, Forall layer_ok (pv_P t)) /\
  r_init (layer_res LBinaryPage) (fst pv_u0) (snd pv_u0) /\
  exec (shared_step (layer_res LBinaryPage)) pv_u0 (fst (pv_run pv_sched)) (snd (pv_run pv_sched)) /\
  private_legal pv_P (fst (pv_run pv_sched)) /\
  stacked (map layer_res [LContiguous (2 ^ 22)]) (ulog (snd (ust (snd (pv_run pv_sched))))) (rev stk4) /\
  upstream_ok (rev stk4) /\
  legal_calls pv_top0 /\ stacked (map layer_res (pv_P 0)) pv_top0 (thread_calls 0 (fst (pv_run pv_sched))) /\
  legal_calls pv_top1 /\ stacked (map layer_res (pv_P 1)) pv_top1 (thread_calls 1 (fst (pv_run pv_sched))) /\
  ulive pv_top0 = [mkBlock stk_base 100 16] /\ ulive pv_top1 = [mkBlock pv_b 200 8].
Proof.
  split; [exact Logic.I|]. split; [constructor; [cbn [layer_ok]; lia|constructor]|].
  split; [intros [|t]; constructor; try exact Logic.I; constructor|].
  split; [split; reflexivity|]. split; [apply pv_exec|].
  split.
  { pose proof pv_private as H. intros before l after E. apply (H before l (after ++ skipn 12 (fst (pv_run pv_done)))).
    rewrite app_comm_cons, app_assoc, <- E. vm_compute. reflexivity. }
  split; [exact pv_lowest|].
  split; [apply upstream_okb_ok; vm_compute; reflexivity|]. split; [exact pv_legal0|]. split; [exact pv_stacked0|].
  split; [exact pv_legal1|]. split; [exact pv_stacked1|]. split; reflexivity.
Qed.

Example C146_released_ex :
  exec (shared_step (layer_res LBinaryPage)) pv_u0 (fst (pv_run pv_done)) (snd (pv_run pv_done)) /\
  private_legal pv_P (fst (pv_run pv_done)) /\ (forall t, phase (th (snd (pv_run pv_done)) t) = 0%nat) /\
  (forall t, ulive (thread_calls t (fst (pv_run pv_done))) = [] \/
     exists top, legal_calls top /\ ulive top = [] /\ destroyed (map layer_res (pv_P t)) top (thread_calls t (fst (pv_run pv_done)))) /\
  destroyed (map layer_res [LContiguous (2 ^ 22)])
    (ulog (r_destroy (layer_res LBinaryPage) (fst (ust (snd (pv_run pv_done)))) (snd (ust (snd (pv_run pv_done)))))) (rev stk4d) /\
  upstream_ok (rev stk4d).
Proof.
  split; [apply pv_exec|]. split; [exact pv_private|].
  split; [intros [|[|t]]; vm_compute; reflexivity|].
  split.
  { intros [|[|t]].
    - right. exists (UFree stk_base 100 16 :: pv_top0). split; [exact pv_legal0d|]. split; [reflexivity|exact pv_destroyed0].
    - right. exists (UFree pv_b 200 8 :: pv_top1). split; [exact pv_legal1d|]. split; [reflexivity|exact pv_destroyed1].
    - left. vm_compute. reflexivity. }
  split; [|apply upstream_okb_ok; vm_compute; reflexivity].
  match goal with |- destroyed _ ?x _ => replace x with (rev (pv_pages ++ pv_back)) by (vm_compute; reflexivity) end.
  cbn [map layer_res destroyed].
  destruct (replay_destroyed (contiguous_res (2 ^ 22)) (pv_pages ++ pv_back)
    (Contiguous.mkC (2 ^ 22) stk_base stk_base) (mkWorld (rev stk4) (answers stk4))) with (l := rev stk4d) as (s4 & w4 & R4 & E4);
    [exists (mkWorld [] (answers stk4)); split; reflexivity|vm_compute; reflexivity|].
  exists s4, w4. split; [exact R4|exact E4].
Qed.
