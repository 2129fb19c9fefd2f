(** What every schedule of a call amounts to. *)
From Verif Require Import Base BaseLemmas Copy EdmBuffer EdmCopy Async AsyncProofs AsyncCopyProofs AsyncJagged.

Lemma sim_ops fl l : sim fl drop_b all (p_ops l) (sync_ops l).
Proof.
  induction l as [|o l IH]; cbn [p_ops sync_ops]; [apply sim_ret; auto|].
  apply (sim_bind_all fl idA drop_b ret_only _ _ _ (fun _ m => sync_ops l m)); [apply sim_issue|]. intros []. exact IH.
Qed.
Lemma ops_true fl l : forall s b s', srun fl (p_ops l) s = (Ret b, s') -> b = true.
Proof.
  induction l as [|o l IH]; intros s b s' H; cbn [p_ops srun] in H; [congruence|]. rewrite srun_bind in H.
  destruct (srun fl (p_issue o) s) as [[u|e|] s1]; [eauto|discriminate|discriminate].
Qed.
Lemma sim_ops' fl l : sim fl drop_b (fly_b true) (p_ops l) (sync_ops l).
Proof.
  intros s W NU. destruct (sim_ops fl l s W NU) as (r & s' & H1 & H2 & H3 & H4 & H5 & H6).
  exists r, s'. repeat (split; [solve [auto]|]). intros F. destruct r as [b|e|]; cbn in F; [|discriminate|discriminate].
  pose proof (ops_true _ _ _ _ _ H1). congruence.
Qed.

(** All events are gone when a call has ended. *)
Lemma call_events fl {B} (pi : bool -> B) fly p f m : sim fl pi fly p f -> fly (Ret false) = false -> fst (f m) <> UB ->
  forall p' a', asteps fl (p_call p, a_init m) (p', a') -> p' = PRet tt \/ (exists e, p' = PThrow e) ->
  forall o, In o (a_evs a') -> eo_alive o = false /\ eo_destroyed o = 1%nat.
Proof.
  intros H F NU p' a' ST E o Ho.
  assert (NU1 : fst (forget f m) <> UB) by (unfold forget, cbind; destruct (f m) as [[| |] m']; cbn in *; congruence).
  destruct (sim_call fl pi fly p f H F (s_init m) ltac:(split; cbn; lia) NU1) as (r & s' & H1 & H2 & _ & H4 & _).
  assert (NR : r <> UB) by (intros ->; cbn [omap s_init s_mem] in H2; congruence).
  destruct (async_thm fl (p_call p) m r s' H1 NR p' a' ST) as (_ & _ & _ & G).
  destruct (G ltac:(destruct E; eauto)) as (_ & _ & EV). destruct H4 as (_ & _ & (evs & E1 & E2) & _). rewrite EV, E1 in Ho. cbn [s_init s_evs app] in Ho.
  rewrite Forall_forall in E2. destruct (E2 o Ho) as (_ & A & D). auto.
Qed.

(** ** Statement: every execution of [p], a call whose event is waited for, never
    misbehaves, always can go on until it ends (it does so after finitely many steps), and
    ends like [f] on the memory at the start, with nothing left to do if it returns.
    [quiet e]: nothing is left to do either if the exception [e] is thrown. *)
Definition runs_as (fl : bool) (quiet : exn -> bool) (p : prog bool) {B} (f : cmem -> cm B) : Prop :=
  forall m, fst (f m) <> UB -> forall p' a', asteps fl (p_call p, a_init m) (p', a') ->
  p' <> PUB /\
  (p' = PRet tt -> (exists b, fst (f m) = Ret b) /\ a_q a' = [] /\ a_mem a' = snd (f m)) /\
  (forall e, p' = PThrow e -> fst (f m) = Throw e /\ (quiet e = true -> a_q a' = [] /\ a_mem a' = snd (f m))) /\
  (p' = PRet tt \/ (exists e, p' = PThrow e) \/ exists c, astep fl (p', a') c).
(** The same for a function that returns a value and no event. *)
Definition gets_as {A} (fl : bool) (p : prog A) (f : cmem -> cm A) : Prop :=
  forall m, fst (f m) <> UB -> forall p' a', asteps fl (p, a_init m) (p', a') ->
  p' <> PUB /\
  (forall v, p' = PRet v -> f m = (Ret v, a_mem a') /\ a_q a' = []) /\
  (forall e, p' = PThrow e -> f m = (Throw e, a_mem a') /\ a_q a' = []) /\
  ((exists v, p' = PRet v) \/ (exists e, p' = PThrow e) \/ exists c, astep fl (p', a') c).

Lemma sim_runs fl quiet p {B} (f : cmem -> cm B) (pi : bool -> B) fly : sim fl pi fly p f -> fly (Ret false) = false ->
  (forall e, quiet e = true -> fly (Throw e) = false) -> runs_as fl quiet p f.
Proof.
  intros H F Q m NU p' a' ST. destruct (call_thm fl pi fly p f m H F NU p' a' ST) as (H1 & H2 & H3 & H4).
  split; [auto|]. split; [auto|]. split; [|auto]. intros e E. destruct (H3 e E) as (G1 & G2). auto.
Qed.
Lemma sim_gets fl {A} (p : prog A) f : sim fl idA none p f -> gets_as fl p f.
Proof.
  intros H m NU p' a' ST. destruct (H (s_init m) ltac:(split; cbn; lia) NU) as (r & s' & H1 & H2 & H3 & _ & _ & H6). cbn [s_init s_mem] in H2, H3.
  assert (NR : r <> UB) by (intros ->; cbn in H2; congruence). specialize (H6 eq_refl eq_refl).
  destruct (async_thm fl p m r s' H1 NR p' a' ST) as (G1 & G2 & G3 & _). split; [auto|]. split; [|split].
  - intros v ->. pose proof (async_quiet fl p m r s' H1 NR H6 _ a' ST (or_introl (ex_intro _ v eq_refl))) as (Q1 & Q2).
    rewrite (G2 v eq_refl) in H2. cbn in H2. unfold idA in H2. split; [|auto]. rewrite Q2, H3, H2. destruct (f m); auto.
  - intros e ->. pose proof (async_quiet fl p m r s' H1 NR H6 _ a' ST (or_intror (ex_intro _ e eq_refl))) as (Q1 & Q2).
    rewrite (G3 e eq_refl) in H2. cbn in H2. split; [|auto]. rewrite Q2, H3, H2. destruct (f m); auto.
  - exact (async_progress fl p m r s' H1 NR p' a' ST).
Qed.

Definition no_exn (e : exn) : bool := false.
Definition any_exn (e : exn) : bool := true.
Definition length_exn (e : exn) : bool := match e with length_error => true | _ => false end.

Lemma runs_ops fl l : runs_as fl no_exn (p_ops l) (sync_ops l).
Proof. apply (sim_runs fl no_exn _ _ drop_b (fly_b true)); [apply sim_ops'|auto|discriminate]. Qed.

Lemma runs_vector fl sz v from to k value :
  runs_as fl any_exn (p_setup_vector v) (setup_vector v) /\
  runs_as fl any_exn (p_memset_vector sz v value) (memset_vector sz v value) /\
  runs_as fl any_exn (p_copy_vector sz k from to) (copy_vector sz k from to) /\
  gets_as fl (p_get_size v) (get_size v).
Proof.
  split; [|split; [|split]].
  - apply (sim_runs fl any_exn _ _ drop_b ret_true); auto. apply sim_setup_vector.
  - apply (sim_runs fl any_exn _ _ drop_b ret_true); auto. apply sim_memset_vector.
  - apply (sim_runs fl any_exn _ _ idA ret_true); auto. apply sim_copy_vector.
  - apply sim_gets. apply sim_get_size.
Qed.
Lemma runs_jagged sz l from to k value :
  (forall fl, runs_as fl any_exn (p_setup_jagged l) (setup_jagged l)) /\
  (forall fl, runs_as fl no_exn (p_memset_jagged sz l value) (memset_jagged sz l value)) /\
  runs_as false length_exn (p_copy_jagged sz k from to) (copy_jagged sz k from to) /\
  (forall fl, gets_as fl (p_get_sizes l) (get_sizes l)).
Proof.
  split; [|split; [|split]].
  - intros fl. apply (sim_runs fl any_exn _ _ drop_b ret_true); auto. apply sim_setup_jagged.
  - intros fl. apply (sim_runs fl no_exn _ _ drop_b (fly_b true)); auto; try discriminate. apply sim_memset_jagged.
  - apply (sim_runs false length_exn _ _ idA fly_j); auto; [apply sim_copy_jagged; auto|]. intros []; cbn; auto; discriminate.
  - intros fl. apply sim_gets. apply sim_get_sizes.
Qed.
Lemma runs_edm vars e from to k value :
  (forall fl, runs_as fl any_exn (p_edm_setup e) (edm_setup e)) /\
  runs_as false no_exn (p_edm_memset vars e value) (edm_memset vars e value) /\
  runs_as false no_exn (p_edm_copy vars k from to) (edm_copy vars k from to) /\
  (forall fl, gets_as fl (p_edm_get_size vars e) (edm_get_size vars e)).
Proof.
  split; [|split; [|split]].
  - intros fl. apply (sim_runs fl any_exn _ _ drop_b ret_true); auto. apply sim_edm_setup.
  - apply (sim_runs false no_exn _ _ drop_b (fly_b true)); auto; try discriminate. apply sim_edm_memset; auto.
  - apply (sim_runs false no_exn _ _ drop_b (fly_b true)); auto; try discriminate. apply sim_edm_copy; auto.
  - intros fl. apply sim_gets. apply sim_edm_get_size.
Qed.

(** ** One particular schedule: the host goes first, the stream only when the host waits. *)
Fixpoint lazy_run (fl : bool) {A} (n : nat) (c : prog A * astate) : prog A * astate :=
  match n with
  | O => c
  | S n => match host_step fl (fst c) (snd c) with
           | Some c' => lazy_run fl n c'
           | None => match fst c with
                     | PRet _ | PThrow _ | PUB => c
                     | _ => match stream_step (fst c) (snd c) with Some c' => lazy_run fl n c' | None => c end
                     end
           end
  end.
Lemma lazy_steps fl {A} n : forall c : prog A * astate, asteps fl c (lazy_run fl n c).
Proof.
  induction n as [|n IH]; intros [p a]; cbn [lazy_run]; [apply steps_refl|]. cbn [fst snd].
  destruct (host_step fl p a) as [c'|] eqn:E; [eapply steps_trans; [apply step_host; exact E|apply IH]|].
  destruct (stream_step p a) as [c'|] eqn:E'.
  - destruct p; try apply steps_refl; (eapply steps_trans; [apply step_stream; exact E'|apply IH]).
  - destruct p; apply steps_refl.
Qed.
