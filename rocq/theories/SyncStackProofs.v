(** Threads that share a stack of memory resources. *)
From Verif Require Import Base BaseLemmas Stack StackProofs Sync SyncStack.
From Coq Require Import Permutation.

Definition legal_threads (tr : list (label scall sres)) : Prop :=
  forall tr1 l tr2, tr = tr1 ++ l :: tr2 -> lg l = 0%nat ->
    match lc l with SAlloc size align => req_ok size align | SFree b => In b (held tr1) end.

Lemma calls_snoc tr l : calls (tr ++ [l]) = call_of l ++ calls tr.
Proof. unfold calls. rewrite fold_left_app. reflexivity. Qed.
Lemma held_snoc tr l : held (tr ++ [l]) = hold (held tr) l.
Proof. unfold held. rewrite fold_left_app. reflexivity. Qed.
Lemma legal_prefix tr l : legal_threads (tr ++ [l]) -> legal_threads tr.
Proof. intros H tr1 x tr2 -> Hx. apply (H tr1 x (tr2 ++ [l])); [rewrite <- app_assoc; reflexivity|exact Hx]. Qed.
Lemma legal_last tr l : legal_threads (tr ++ [l]) -> lg l = 0%nat ->
  match lc l with SAlloc size align => req_ok size align | SFree b => In b (held tr) end.
Proof. intros H. apply (H tr l []). reflexivity. Qed.

Lemma flat_map_same {A} (f g : nat -> list A) l : (forall a, In a l -> f a = g a) -> flat_map f l = flat_map g l.
Proof. intros H. rewrite !flat_map_concat_map. f_equal. apply map_ext_in. exact H. Qed.

Lemma flat_map_local {A} (f : nat -> list A) t n : (t < n)%nat -> exists rest,
  forall f', (forall u, u <> t -> f' u = f u) -> Permutation (flat_map f' (seq 0 n)) (f' t ++ rest).
Proof.
  intros H. replace n with (t + (1 + (n - t - 1)))%nat by lia. rewrite !seq_app. cbn [seq Nat.add].
  exists (flat_map f (seq 0 t) ++ flat_map f (seq (t + 1) (n - t - 1))). intros f' HF.
  rewrite !flat_map_app. cbn [flat_map app]. 
  rewrite (flat_map_same _ f (seq 0 t)) by (intros a Ha; apply in_seq in Ha; apply HF; lia).
  rewrite (flat_map_same _ f (seq (t + 1) _)) by (intros a Ha; apply in_seq in Ha; apply HF; lia).
  rewrite app_nil_r. rewrite !app_assoc. apply Permutation_app_tail. apply Permutation_app_comm.
Qed.

(** The block of a call that is on its way: allocated but not returned yet, or given back
    but not freed yet. *)
Definition pend (x : tstate scall sres) : list block :=
  match cur x, phase x, res x with
  | Some (SAlloc size align), (4 | 5)%nat, Some (RAlloc (Ret p)) => [mkBlock p size align]
  | Some (SFree b), (1 | 2 | 3)%nat, _ => [b]
  | _, _, _ => []
  end.

Lemma set_eq (f : nat -> tstate scall sres) t x : set f t x t = x.
Proof. unfold set. rewrite Nat.eqb_refl. reflexivity. Qed.
Lemma set_neq (f : nat -> tstate scall sres) t x u : u <> t -> set f t x u = f u.
Proof. unfold set. intros H. destruct (Nat.eqb_spec u t); [contradiction|reflexivity]. Qed.

Lemma pend_set f t x n : (t < n)%nat -> exists rest,
  Permutation (flat_map (fun u => pend (f u)) (seq 0 n)) (pend (f t) ++ rest) /\
  Permutation (flat_map (fun u => pend (set f t x u)) (seq 0 n)) (pend x ++ rest).
Proof.
  intros H. destruct (flat_map_local (fun u => pend (f u)) t n H) as (rest & HR). exists rest. split.
  - apply (HR (fun u => pend (f u))). reflexivity.
  - rewrite (HR (fun u => pend (set f t x u))); [rewrite set_eq; reflexivity|].
    intros u Hu. cbn beta. rewrite set_neq by exact Hu. reflexivity.
Qed.

Section Shared.
  Variable R : resource.
  Variable rs : list resource.
  Hypothesis HR : correct R.
  Hypothesis HF : Forall correct rs.
  Variable u0 : rstate R * world.
  Hypothesis H0 : r_init R (fst u0) (snd u0).

  Definition good_label (l : label scall sres) : Prop :=
    match lc l, lr l with
    | SAlloc _ _, Some r => (exists p, r = RAlloc (Ret p)) \/ r = RAlloc (Throw bad_alloc)
    | SFree _, Some r => r = RFree (Ret tt)
    | _, None => True
    end.
  Definition good_res (x : tstate scall sres) : Prop :=
    match cur x, res x with
    | Some (SAlloc _ _), Some r => (exists p, r = RAlloc (Ret p)) \/ r = RAlloc (Throw bad_alloc)
    | Some (SFree _), Some r => r = RFree (Ret tt)
    | _, _ => True
    end.

  Lemma step_log s l s' : step (shared_step R) s l s' -> exists n, ulog (snd (ust s')) = n ++ ulog (snd (ust s)).
  Proof.
    destruct HR as (Inv & C). intros H.
    destruct H as [s t c P|s t c P Q L|s t c P Q|s t c u' r P Q E1|s t c r P Q W|s t c r P Q W]; cbn [ust];
      try (exists []; reflexivity).
    destruct c as [sz al|b]; cbn [shared_step] in E1.
    - destruct (r_alloc R (fst (ust s)) (snd (ust s)) sz al) as [[r1 s1] w1] eqn:E. injection E1 as <- <-.
      exact (k_alog _ _ C _ _ _ _ _ _ _ E).
    - destruct (r_free R (fst (ust s)) (snd (ust s)) (bptr b) (bsize b) (balign b)) as [[r1 s1] w1] eqn:E.
      injection E1 as <- <-. exact (k_flog _ _ C _ _ _ _ _ _ _ _ E).
  Qed.

  (** One step that keeps the calls: only the thread [t] and the held blocks change. *)
  Lemma perm_move (h h' live : list block) f t x n :
    (t < n)%nat ->
    Permutation live (h ++ flat_map (fun u => pend (f u)) (seq 0 n)) ->
    Permutation (h ++ pend (f t)) (h' ++ pend x) ->
    Permutation live (h' ++ flat_map (fun u => pend (set f t x u)) (seq 0 n)).
  Proof.
    intros Ht HP HM. destruct (pend_set f t x n Ht) as (rest & P1 & P2).
    rewrite HP, P1, P2, !app_assoc, HM. reflexivity.
  Qed.

  Definition threads_below (n : nat) (tr : list (label scall sres)) : Prop := Forall (fun l => (lt l < n)%nat) tr.

  Lemma set_all (P : tstate scall sres -> Prop) f t x : P x -> (forall u, P (f u)) -> forall u, P (set f t x u).
  Proof. intros HX HA u. unfold set. destruct (Nat.eqb u t); auto. Qed.

  Definition cur_ok (x : tstate scall sres) : Prop :=
    match cur x with Some (SAlloc size align) => req_ok size align | _ => True end.

  Lemma shared_inv n tr s : exec (shared_step R) u0 tr s -> legal_threads tr -> threads_below n tr ->
    below rs (ulog (snd (ust s))) ->
    runs R (calls tr) (fst (ust s)) (snd (ust s)) /\ calls_ok (calls tr) /\ Forall good_label tr /\
    (forall t, good_res (th s t)) /\ (forall t, cur_ok (th s t)) /\
    Permutation (ulive (calls tr)) (held tr ++ flat_map (fun u => pend (th s u)) (seq 0 n)).
  Proof.
    intros H. induction H as [|tr s l s' H IH ST]; intros HL HN HB.
    - split; [apply runs_init; exact H0|]. split; [exact Logic.I|]. split; [constructor|].
      split; [intros t; exact Logic.I|]. split; [intros t; exact Logic.I|].
      cbn [init th]. induction (seq 0 n) as [|a k IHk]; [constructor|exact IHk].
    - destruct (step_log _ _ _ ST) as (m & Hm).
      assert (HB0 : below rs (ulog (snd (ust s)))) by (apply (below_tail rs HF m); rewrite <- Hm; exact HB).
      apply Forall_app in HN. destruct HN as (HN & HNl). apply Forall_inv in HNl.
      destruct (IH (legal_prefix _ _ HL) HN HB0) as (A1 & A2 & A3 & A4 & A5 & A6). clear IH.
      pose proof (legal_last _ _ HL) as LL. rewrite calls_snoc, held_snoc, Forall_app.
      destruct ST as [s t c P|s t c P Q L|s t c P Q|s t c u' r P Q E|s t c r P Q W|s t c r P Q W];
        cbn [lt lg lc lr] in HNl, LL; cbn [th ust] in *;
        pose proof (A4 t) as G; pose proof (A5 t) as K; unfold good_res in G; unfold cur_ok in K;
        try rewrite Q in G, K; try rewrite W in G.
      + specialize (LL eq_refl). split; [exact A1|]. split; [exact A2|].
        split; [split; [exact A3|constructor; [|constructor]]; destruct c; exact Logic.I|].
        split; [apply set_all; [destruct c; exact Logic.I|exact A4]|].
        split; [apply set_all; [destruct c; [exact LL|exact Logic.I]|exact A5]|].
        apply (perm_move (held tr)); [exact HNl|exact A6|]. unfold pend at 1. rewrite P.
        destruct c as [sz al|b]; unfold hold, pend; cbn [lg lc lr cur phase res].
        * destruct (cur (th s t)) as [[]|]; reflexivity.
        * replace (match cur (th s t) with Some _ | _ => [] end) with (@nil block) by (destruct (cur (th s t)) as [[]|]; reflexivity).
          destruct (cur (th s t)) as [[]|]; rewrite app_nil_r, (remove1_perm _ _ LL) at 1; apply Permutation_cons_append.
      + split; [exact A1|]. split; [exact A2|].
        split; [split; [exact A3|constructor; [|constructor]]; destruct c; exact Logic.I|].
        split; [apply set_all; [destruct c; exact Logic.I|exact A4]|].
        split; [apply set_all; [exact K|exact A5]|].
        apply (perm_move (held tr)); [exact HNl|exact A6|]. unfold pend. rewrite P, Q.
        destruct c; reflexivity.
      + split; [exact A1|]. split; [exact A2|].
        split; [split; [exact A3|constructor; [|constructor]]; destruct c; exact Logic.I|].
        split; [apply set_all; [destruct c; exact Logic.I|exact A4]|].
        split; [apply set_all; [exact K|exact A5]|].
        apply (perm_move (held tr)); [exact HNl|exact A6|]. unfold pend. rewrite P, Q.
        destruct c; reflexivity.
      + destruct (pend_set (th s) t (mkT (cnt (th s t)) 4 (Some c) (Some r)) n HNl) as (rest & P1 & P2).
        destruct (stack_defined R rs HR HF _ _ _ A1 A2) as (D1 & D2).
        destruct HB as (bo & B1 & B2). destruct HB0 as (bo0 & B3 & B4).
        unfold hold, call_of; cbn [lg lc lr]. destruct c as [sz al|b]; cbn [shared_step] in E.
        * destruct (r_alloc R (fst (ust s)) (snd (ust s)) sz al) as [[r1 s1] w1] eqn:EA. injection E as <- <-.
          cbn [fst snd] in *. destruct (D1 _ _ _ _ _ _ K EA B1 B2) as [(p & ->)| ->].
          -- split; [eapply runs_alloc; eassumption|]. split; [split; [exact K|exact A2]|].
             split; [split; [exact A3|constructor; [left; eauto|constructor]]|].
             split; [apply set_all; [left; eauto|exact A4]|]. split; [apply set_all; [exact K|exact A5]|].
             rewrite P2. cbn [app ulive]. rewrite A6, P1. unfold pend. rewrite P, Q. cbn [cur phase res app].
             apply Permutation_middle.
          -- split; [eapply runs_throw; eassumption|]. split; [split; [exact K|exact A2]|].
             split; [split; [exact A3|constructor; [right; reflexivity|constructor]]|].
             split; [apply set_all; [right; reflexivity|exact A4]|]. split; [apply set_all; [exact K|exact A5]|].
             rewrite P2. cbn [app ulive]. rewrite A6, P1. unfold pend. rewrite P, Q. reflexivity.
        * assert (IB : In b (ulive (calls tr))).
          { rewrite A6, P1. apply in_or_app. right. unfold pend. rewrite P, Q. left. reflexivity. }
          destruct (D2 b _ IB B3 B4) as (s1 & w1 & E1). rewrite E1 in E. injection E as <- <-. cbn [fst snd] in *.
          split; [eapply runs_free; eassumption|].
          split; [split; [destruct b; exact IB|exact A2]|].
          split; [split; [exact A3|constructor; [reflexivity|constructor]]|].
          split; [apply set_all; [reflexivity|exact A4]|]. split; [apply set_all; [exact Logic.I|exact A5]|].
          rewrite P2. cbn [app ulive]. destruct b as [bp bs ba]; cbn [bptr bsize balign] in *.
          apply (Permutation_cons_inv (a := mkBlock bp bs ba)). rewrite <- (remove1_perm _ _ IB).
          rewrite A6, P1. unfold pend. rewrite P, Q. cbn [cur phase res app]. symmetry. apply Permutation_middle.
      + split; [exact A1|]. split; [exact A2|].
        split; [split; [exact A3|constructor; [exact G|constructor]]|].
        split; [apply set_all; [exact G|exact A4]|]. split; [apply set_all; [exact K|exact A5]|].
        apply (perm_move (held tr)); [exact HNl|exact A6|]. unfold pend. rewrite P, Q, W.
        destruct c; reflexivity.
      + split; [exact A1|]. split; [exact A2|].
        split; [split; [exact A3|constructor; [exact G|constructor]]|].
        split; [apply set_all; [exact Logic.I|exact A4]|]. split; [apply set_all; [exact Logic.I|exact A5]|].
        apply (perm_move (held tr)); [exact HNl|exact A6|]. unfold hold, pend. rewrite P, Q, W.
        cbn [lg lc lr cur phase res]. destruct c as [sz al|b]; [|reflexivity].
        destruct G as [(p & ->)| ->]; [|reflexivity]. rewrite app_nil_r. symmetry. apply Permutation_cons_append.
  Qed.
End Shared.

Lemma threads_bound (tr : list (label scall sres)) : exists n, threads_below n tr.
Proof.
  induction tr as [|l tr (n & IH)]; [exists O; constructor|]. exists (S (Nat.max (lt l) n)).
  constructor; [lia|]. eapply Forall_impl; [|exact IH]. cbn beta. intros a Ha. lia.
Qed.

Lemma pend_idle (f : nat -> tstate scall sres) l : (forall t, phase (f t) = 0%nat) -> flat_map (fun u => pend (f u)) l = [].
Proof.
  intros HP. induction l as [|a k IHk]; [reflexivity|]. cbn [flat_map]. rewrite IHk.
  unfold pend. rewrite HP. destruct (cur (f a)) as [[]|]; reflexivity.
Qed.

Theorem shared_stack R rs u0 tr s bottom : correct R -> Forall correct rs -> r_init R (fst u0) (snd u0) ->
  exec (shared_step R) u0 tr s -> legal_threads tr ->
  stacked rs (ulog (snd (ust s))) bottom -> upstream_ok bottom ->
  runs R (calls tr) (fst (ust s)) (snd (ust s)) /\ calls_ok (calls tr) /\ Forall good_label tr /\
  exists pending, Permutation (ulive (calls tr)) (held tr ++ pending) /\
    ((forall t, phase (th s t) = 0%nat) -> pending = []).
Proof.
  intros HR HF H0 HE HL HS HU. destruct (threads_bound tr) as (n & HN).
  destruct (shared_inv R rs HR HF u0 H0 n tr s HE HL HN) as (A1 & A2 & A3 & _ & _ & A6); [exists bottom; auto|].
  split; [exact A1|]. split; [exact A2|]. split; [exact A3|]. exists (flat_map (fun u => pend (th s u)) (seq 0 n)). split; [exact A6|].
  apply pend_idle.
Qed.

Theorem shared_released R rs u0 tr s bottom : correct R -> Forall correct rs -> r_init R (fst u0) (snd u0) ->
  exec (shared_step R) u0 tr s -> legal_threads tr ->
  (forall t, phase (th s t) = 0%nat) -> held tr = [] ->
  destroyed rs (ulog (r_destroy R (fst (ust s)) (snd (ust s)))) bottom -> upstream_ok bottom ->
  calls_ok bottom /\ ulive bottom = [].
Proof.
  intros HR HF H0 HE HL HP HH HD HU.
  destruct (destroyed_before rs HF _ _ HD) as (b1 & m1 & M1 & M2). pose proof HR as (Inv & C).
  destruct (k_dlog _ _ C (fst (ust s)) (snd (ust s))) as (n & Hn). rewrite Hn in M1.
  destruct (stacked_tail rs HF _ _ _ M1) as (b2 & m2 & N1 & N2).
  assert (U2 : upstream_ok b2).
  { rewrite M2, N2 in HU. apply upstream_ok_app in HU. apply upstream_ok_app in HU. exact HU. }
  destruct (shared_stack R rs u0 tr s b2 HR HF H0 HE HL N1 U2) as (A1 & A2 & _ & pe & P1 & P2).
  rewrite (P2 HP), HH in P1. cbn [app] in P1. apply Permutation_sym, Permutation_nil in P1.
  apply (stack_released (R :: rs) (Forall_cons _ HR HF) (calls tr) bottom); auto.
  cbn [destroyed]. exists (fst (ust s)), (snd (ust s)). auto.
Qed.

(** ** Executions from schedules *)
(** The next stage of the thread [t]; [c] is the call that an idle thread makes. *)
Definition next (R : resource) (s : state (rstate R * world) scall sres) (t : nat) (c : scall) :
  option (label scall sres * state (rstate R * world) scall sres) :=
  let x := th s t in
  match phase x, cur x, res x with
  | 0%nat, _, _ => Some (mkL t (cnt x) 0 c None, mkS (lock s) (set (th s) t (mkT (cnt x) 1 (Some c) None)) (ust s))
  | 1%nat, Some c, _ =>
      match lock s with
      | None => Some (mkL t (cnt x) 1 c None, mkS (Some t) (set (th s) t (mkT (cnt x) 2 (Some c) None)) (ust s))
      | Some _ => None
      end
  | 2%nat, Some c, _ => Some (mkL t (cnt x) 2 c None, mkS (lock s) (set (th s) t (mkT (cnt x) 3 (Some c) None)) (ust s))
  | 3%nat, Some c, _ =>
      let '(u', r) := shared_step R (ust s) c in
      Some (mkL t (cnt x) 3 c (Some r), mkS (lock s) (set (th s) t (mkT (cnt x) 4 (Some c) (Some r))) u')
  | 4%nat, Some c, Some r => Some (mkL t (cnt x) 4 c (Some r), mkS None (set (th s) t (mkT (cnt x) 5 (Some c) (Some r))) (ust s))
  | 5%nat, Some c, Some r => Some (mkL t (cnt x) 5 c (Some r), mkS (lock s) (set (th s) t (mkT (S (cnt x)) 0 None None)) (ust s))
  | _, _, _ => None
  end.

Lemma next_step R s t c l s' : next R s t c = Some (l, s') -> step (shared_step R) s l s'.
Proof.
  unfold next. intros H. destruct (phase (th s t)) as [|[|[|[|[|[|k]]]]]] eqn:P.
  - injection H as <- <-. apply st_inv; assumption.
  - destruct (cur (th s t)) as [c'|] eqn:Q; [|discriminate]. destruct (lock s) eqn:L; [discriminate|].
    injection H as <- <-. apply st_lock; assumption.
  - destruct (cur (th s t)) as [c'|] eqn:Q; [|discriminate]. injection H as <- <-. apply st_begin; assumption.
  - destruct (cur (th s t)) as [c'|] eqn:Q; [|discriminate]. destruct (shared_step R (ust s) c') as [u' r] eqn:E.
    injection H as <- <-. apply st_end; assumption.
  - destruct (cur (th s t)) as [c'|] eqn:Q; [|discriminate]. destruct (res (th s t)) as [r|] eqn:W; [|discriminate].
    injection H as <- <-. apply st_unlock; assumption.
  - destruct (cur (th s t)) as [c'|] eqn:Q; [|discriminate]. destruct (res (th s t)) as [r|] eqn:W; [|discriminate].
    injection H as <- <-. apply st_ret; assumption.
  - destruct (cur (th s t)); discriminate.
Qed.

Fixpoint schedule (R : resource) (sc : list (nat * scall)) (tr : list (label scall sres))
  (s : state (rstate R * world) scall sres) : option (list (label scall sres) * state (rstate R * world) scall sres) :=
  match sc with
  | [] => Some (tr, s)
  | (t, c) :: sc' => match next R s t c with Some (l, s') => schedule R sc' (tr ++ [l]) s' | None => None end
  end.

Lemma schedule_exec R u0 sc : forall tr s tr' s', exec (shared_step R) u0 tr s -> schedule R sc tr s = Some (tr', s') ->
  exec (shared_step R) u0 tr' s'.
Proof.
  induction sc as [|[t c] sc IH]; intros tr s tr' s' H E; cbn [schedule] in E.
  - injection E as <- <-. exact H.
  - destruct (next R s t c) as [[l s1]|] eqn:N; [|discriminate]. eapply IH; [|exact E].
    eapply exec_snoc; [exact H|]. eapply next_step; exact N.
Qed.

Fixpoint legal_from (h : list block) (tr : list (label scall sres)) : Prop :=
  match tr with
  | [] => True
  | l :: tr' =>
      match lg l, lc l with
      | 0%nat, SAlloc size align => req_ok size align
      | 0%nat, SFree b => In b h
      | _, _ => True
      end /\ legal_from (hold h l) tr'
  end.

Lemma legal_from_ok tr : legal_from [] tr -> legal_threads tr.
Proof.
  intros H tr1 l tr2 -> Hl. unfold held. revert H. generalize (@nil block) as h.
  induction tr1 as [|x tr1 IH]; intros h H; cbn [app legal_from fold_left] in *.
  - rewrite Hl in H. destruct (lc l); apply H.
  - apply IH, H.
Qed.
