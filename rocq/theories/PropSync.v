(** Property C29: concurrent use of a synchronized resource is linearizable. *)
From Verif Require Import Base Sync SyncProofs.
Open Scope nat_scope.

(** C29: the upstream calls, in the order in which they happened, are a run of
    the sequential upstream resource. *)
Theorem C29_sequential : forall U Call Res (ustep : U -> Call -> U * Res) u0 tr s,
  exec ustep u0 tr s -> seq_run ustep u0 (upstream_calls tr) (ust s).
Proof. exact (@sync_sequential). Qed.
Print Assumptions C29_sequential.

(** C29: upstream calls never overlap in time. *)
Theorem C29_exclusive : forall U Call Res (ustep : U -> Call -> U * Res) u0 tr s i j t k c t' k' c',
  exec ustep u0 tr s -> begins tr i t k c -> begins tr j t' k' c' -> i < j ->
  exists m r, i < m < j /\ ends tr m t k c r.
Proof. exact (@sync_exclusive). Qed.
Print Assumptions C29_exclusive.

(** C29: each call takes effect between its invocation and its return, and
    returns exactly what upstream answered. *)
Theorem C29_point : forall U Call Res (ustep : U -> Call -> U * Res) u0 tr s i t k c r,
  exec ustep u0 tr s -> returned tr i t k c r ->
  exists j m, m < j < i /\ invoked tr m t k c /\ ends tr j t k c r.
Proof. exact (@sync_point). Qed.
Print Assumptions C29_point.

(** C29: the sequential order respects real time ... *)
Theorem C29_real_time : forall U Call Res (ustep : U -> Call -> U * Res) u0 tr s
    i t k c r j t' k' c' m c'' r'',
  exec ustep u0 tr s ->
  returned tr i t k c r -> invoked tr j t' k' c' -> i < j -> ends tr m t' k' c'' r'' ->
  exists n, n < m /\ ends tr n t k c r.
Proof. exact (@sync_real_time). Qed.
Print Assumptions C29_real_time.

(** ... and hence program order. *)
Theorem C29_program_order : forall U Call Res (ustep : U -> Call -> U * Res) u0 tr s i t k c,
  exec ustep u0 tr s -> invoked tr i t (S k) c ->
  exists j c' r, j < i /\ returned tr j t k c' r.
Proof. exact (@sync_program_order). Qed.
Print Assumptions C29_program_order.

(** Two threads using a counter: thread 1 is invoked while thread 0 is inside. *)
Definition ex_step (u : nat) (c : unit) : nat * nat := (S u, u).
Example C29_ex : exists s,
  exec ex_step 7
    [mkL 0 0 0 tt None; mkL 0 0 1 tt None; mkL 1 0 0 tt None; mkL 0 0 2 tt None;
     mkL 0 0 3 tt (Some 7); mkL 0 0 4 tt (Some 7); mkL 1 0 1 tt None; mkL 1 0 2 tt None;
     mkL 0 0 5 tt (Some 7); mkL 0 1 0 tt None; mkL 1 0 3 tt (Some 8)] s.
Proof.
  eexists.
  pose proof (exec_nil _ _ _ ex_step 7) as E.
  eassert (E1 : exec ex_step 7 _ _) by
    (eapply exec_snoc; [exact E|eapply st_inv with (t := 0) (c := tt); reflexivity]). cbv in E1.
  eassert (E2 : exec ex_step 7 _ _) by
    (eapply exec_snoc; [exact E1|eapply st_lock with (t := 0); reflexivity]). cbv in E2.
  eassert (E3 : exec ex_step 7 _ _) by
    (eapply exec_snoc; [exact E2|eapply st_inv with (t := 1) (c := tt); reflexivity]). cbv in E3.
  eassert (E4 : exec ex_step 7 _ _) by
    (eapply exec_snoc; [exact E3|eapply st_begin with (t := 0); reflexivity]). cbv in E4.
  eassert (E5 : exec ex_step 7 _ _) by
    (eapply exec_snoc; [exact E4|eapply st_end with (t := 0); reflexivity]). cbv in E5.
  eassert (E6 : exec ex_step 7 _ _) by
    (eapply exec_snoc; [exact E5|eapply st_unlock with (t := 0); reflexivity]). cbv in E6.
  eassert (E7 : exec ex_step 7 _ _) by
    (eapply exec_snoc; [exact E6|eapply st_lock with (t := 1); reflexivity]). cbv in E7.
  eassert (E8 : exec ex_step 7 _ _) by
    (eapply exec_snoc; [exact E7|eapply st_begin with (t := 1); reflexivity]). cbv in E8.
  eassert (E9 : exec ex_step 7 _ _) by
    (eapply exec_snoc; [exact E8|eapply st_ret with (t := 0); reflexivity]). cbv in E9.
  eassert (E10 : exec ex_step 7 _ _) by
    (eapply exec_snoc; [exact E9|eapply st_inv with (t := 0) (c := tt); reflexivity]). cbv in E10.
  eassert (E11 : exec ex_step 7 _ _) by
    (eapply exec_snoc; [exact E10|eapply st_end with (t := 1); reflexivity]). cbv in E11.
  exact E11.
Qed.
