(** C161, C162: programs with vector buffers and asynchronous copies. *)
From Verif Require Import Base BaseLemmas Copy BufProg BufProgProofs StreamProg StreamProgProofs.
From Verif Require Stack Graph GraphExamples PropGraph.
From Coq Require Import ZArith List Bool Lia.
Import ListNotations.
Local Open Scope Z_scope.

(** Whatever the program, the speed of the stream, the answers of the memory resources and the garbage in new memory:
    as long as the host does not access or release a buffer that is in use by a call that it has not waited for, all
    results are right, and nothing is left on the stream once all calls have been waited for. *)
Theorem C161_programs : forall orc ops rs st,
  qruns (qst0 orc) ops = (rs, st) -> upstream_ok (ulog (b_w (q_b st))) ->
  match qjudge_all (mkS [] [] 0) ops rs with
  | QGood s => frees_ok (ulog (b_w (q_b st))) /\
      length (ulive (ulog (b_w (q_b st)))) = length (filter (fun o => match o with Some a => negb (a_cap a =? 0) | None => false end) (s_l s)) /\
      (s_pend s = [] -> q_q st = [])
  | QIllegal => True
  | QWrong => False
  end.
Proof. exact qprograms. Qed.
Print Assumptions C161_programs.

(** The right results are those of the synchronous copies, which BufProg.v judges. *)
Theorem C161_calls : forall ops rs s, qjudge_all (mkS [] [] 0) ops rs = QGood s ->
  judge_all [] (fst (calls ops rs)) (snd (calls ops rs)) = Good (s_l s).
Proof. intros ops rs s H. exact (calls_judged ops rs (mkS [] [] 0) s H). Qed.
Print Assumptions C161_calls.

(** What is still to be done on the stream succeeds, and touches only buffers that exist and are in use by the call that has
    issued it. *)
Theorem C161_busy : forall orc ops rs st s, qruns (qst0 orc) ops = (rs, st) -> upstream_ok (ulog (b_w (q_b st))) -> qjudge_all (mkS [] [] 0) ops rs = QGood s ->
  (exists m', q_run (q_q st) (b_m (q_b st)) = Some m') /\
  forall t a x, In (t, a) (q_q st) ->
    match a with QSet n d _ => d <= x < d + n | QCopy n sr d => sr <= x < sr + n \/ d <= x < d + n end ->
    exists i f b bs, nth_error (b_h (q_b st)) i = Some (Some f) /\ f_block f = Some b /\ bptr b <= x < bptr b + bsize b /\ In (t, bs) (s_pend s) /\ In i bs.
Proof. exact qprogram_busy. Qed.
Print Assumptions C161_busy.

(** The same with the resources of any graph. *)
Theorem C161_graph : forall B gs top bottom orc ops rs st,
  PropGraph.graph_ok B gs -> Graph.graph_runs B (map Graph.gnode_node gs) top bottom ->
  PropGraph.legal_graph_calls (B + length gs) top -> upstream_ok (map snd bottom) ->
  qruns (qst0 orc) ops = (rs, st) -> ulog (b_w (q_b st)) = map snd top ->
  qjudge_all (mkS [] [] 0) ops rs <> QWrong.
Proof.
  intros B gs top bottom orc ops rs st HG HR HC HU E HL. destruct (PropGraph.C143_graph B gs top bottom HG HR HC HU) as (A & _).
  rewrite <- HL in A. pose proof (C161_programs orc ops rs st E A) as H. intros EW. rewrite EW in H. exact H.
Qed.
Print Assumptions C161_graph.

(** Three buffers.  The first is filled; the third is filled, copied to the second, and moved while the copy
    is still to be done.  Call 7 is the copy. *)
Definition sorc (n : nat) : option Z := nth n [Some 65536; Some 65600; Some 65664] None.
Definition sops : list qop :=
  [QOp (ONew 2 2 3 true (fun _ => 9)); QOp (ONew 2 2 4 true (fun x => x mod 256)); QOp (ONew 2 2 3 false (fun _ => 1));
   QOp (OSetup 0); QOp (OMemset 0 5); QTick 1; QOp (OSetup 1); QOp (OMemset 2 7); QOp (OCopy 2 1);
   QWait 5; QOp (ODestroy 0); QOp (OMove 2 0); QOp (OMemset 0 8); QTick 1; QWait 7; QOp (OSize 1); QOp (OGet 1 5); QWait 10; QOp (ODestroy 0); QOp (ODestroy 1)].
Example C161_ex : let p := qruns (qst0 sorc) sops in
  fst p = [RDone; RDone; RDone; RDone; RDone; RDone; RDone; RDone; RCopied true; RDone; RDone; RDone; RDone; RDone; RDone; RNum 3; RByte 7; RDone; RDone; RDone] /\
  qjudge_all (mkS [] [] 0) sops (fst p) = QGood (mkS [None; None; None] [] 15) /\ upstream_ok (ulog (b_w (q_b (snd p)))) /\
  length (q_q (snd (qruns (qst0 sorc) (firstn 13 sops)))) = 2%nat.
Proof. cbv zeta. split; [vm_compute; reflexivity|]. split; [vm_compute; reflexivity|]. split; [apply upstream_okb_ok; vm_compute; reflexivity|vm_compute; reflexivity]. Qed.
(** Without waiting, the host reads garbage, and a released buffer makes the stream fail. *)
Example C161_too_early :
  let early := firstn 9 sops ++ [QOp (OGet 1 0)] in let gone := firstn 9 sops ++ [QOp (ODestroy 2); QTick 1] in
  nth_error (fst (qruns (qst0 sorc) early)) 9 = Some (RByte 68) /\ qjudge_all (mkS [] [] 0) early (fst (qruns (qst0 sorc) early)) = QIllegal /\
  nth_error (fst (qruns (qst0 sorc) gone)) 10 = Some RUB /\ qjudge_all (mkS [] [] 0) gone (fst (qruns (qst0 sorc) gone)) = QIllegal.
Proof. vm_compute. auto. Qed.
Example C161_graph_ex : let top := [(1%nat, UAlloc 20 16 (Some 65600)); (1%nat, UAlloc 58 16 (Some 65536))] in
  let bottom := [(0%nat, UAlloc 4096 16 (Some 65536))] in let gs := [Graph.GOne (Stack.LContiguous 4096) 0] in
  let ops := [QOp (ONew 1 1 50 false (fun _ => 9)); QOp (ONew 4 4 3 false (fun _ => 8)); QOp (OMemset 0 1); QOp (OMemset 1 6); QWait 3; QOp (OGet 1 4)] in
  PropGraph.graph_ok 1 gs /\ Graph.graph_runs 1 (map Graph.gnode_node gs) top bottom /\
  PropGraph.legal_graph_calls (1 + length gs) top /\ upstream_ok (map snd bottom) /\
  ulog (b_w (q_b (snd (qruns (qst0 sorc) ops)))) = map snd top /\
  fst (qruns (qst0 sorc) ops) = [RDone; RDone; RDone; RDone; RDone; RByte 6].
Proof.
  cbv zeta. split; [cbn; lia|]. split.
  { cbn [map Graph.gnode_node Graph.graph_runs length Nat.add Stack.layer_res].
    destruct (GraphExamples.greplay_node 1 (Graph.one_node (Stack.contiguous_res 4096) 0)
      [(1%nat, UAlloc 58 16 (Some 65536)); (1%nat, UAlloc 20 16 (Some 65600))]
      (Contiguous.mkC 4096 65536 65536) (Graph.tagged 0 (mkWorld [UAlloc 4096 16 (Some 65536)] (fun _ => Some 65536))) [(0%nat, UAlloc 4096 16 (Some 65536))]) as (s & w & S).
    - eexists. split; [reflexivity|]. exists (mkWorld [] (fun _ => Some 65536)). split; reflexivity.
    - vm_compute. reflexivity.
    - exists s, w, [(0%nat, UAlloc 4096 16 (Some 65536))]. split; [exact S|reflexivity]. }
  split. { cbn. repeat split; try lia; exists 4; split; lia. }
  split; [apply upstream_okb_ok; vm_compute; reflexivity|]. split; vm_compute; reflexivity.
Qed.

(** C162: a wait for the event of the last call does not finish the stream if this call had nothing to do: its event
    is one of vecmem::copy.  Here the last call is the setup of a buffer that is not resizable. *)
Definition wops : list qop := [QOp (ONew 2 2 3 true (fun _ => 9)); QOp (ONew 2 2 4 false (fun _ => 9)); QOp (OMemset 0 5); QOp (OSetup 1)].
Theorem C162_last_event_refuted : exists orc ops k rs st, qruns (qst0 orc) (ops ++ [QWait k]) = (rs, st) /\ upstream_ok (ulog (b_w (q_b st))) /\
  match qjudge_all (mkS [] [] 0) ops (firstn (length ops) rs) with QGood s => s_n s = S k | _ => False end /\
  (exists o, last ops (QTick 0) = QOp o) /\ length (q_q st) = 1%nat.
Proof.
  exists sorc, wops, 3%nat, (fst (qruns (qst0 sorc) (wops ++ [QWait 3]))), (snd (qruns (qst0 sorc) (wops ++ [QWait 3]))).
  split; [apply surjective_pairing|]. split; [apply upstream_okb_ok; vm_compute; reflexivity|]. split; [vm_compute; reflexivity|]. split; [exists (OSetup 1); reflexivity|vm_compute; reflexivity].
Qed.
Print Assumptions C162_last_event_refuted.
(** It does if the last call has started something. *)
Theorem C162_last_event_partial : forall orc ops rs st s o s1,
  qruns (qst0 orc) ops = (rs, st) -> qjudge_all (mkS [] [] 0) ops rs = QGood s ->
  upstream_ok (ulog (b_w (q_b (snd (qstep st (QOp o)))))) -> qjudge s (QOp o) (fst (qstep st (QOp o))) = QGood s1 ->
  match o with
  | OSetup i => exists a, nth_error (s_l s) i = Some (Some a) /\ a_size a <> Fixed
  | OMemset i _ => exists a, nth_error (s_l s) i = Some (Some a) /\ a_cap a <> 0
  | OCopy _ _ => fst (qstep st (QOp o)) = RCopied true
  | _ => False
  end ->
  fst (qstep (snd (qstep st (QOp o))) (QWait (s_n s))) = RDone /\ q_q (snd (qstep (snd (qstep st (QOp o))) (QWait (s_n s)))) = [].
Proof.
  intros orc ops rs st s o s1 E EJ HU E1 HO. apply (last_event orc ops rs st s o E HU EJ s1 E1). generalize dependent (fst (qstep st (QOp o))). intros r _ HO.
  destruct o; try contradiction; cbn [starts].
  - destruct HO as (a & Ha & Hf). unfold alive. rewrite Ha. destruct (a_size a); [contradiction|discriminate|discriminate].
  - destruct HO as (a & Ha & Hc). unfold alive. rewrite Ha. destruct (Z.eqb_spec (a_cap a) 0); [contradiction|discriminate].
  - rewrite HO. discriminate.
Qed.
Print Assumptions C162_last_event_partial.
Example C162_ex : let st := snd (qruns (qst0 sorc) (firstn 8 sops)) in
  match qjudge_all (mkS [] [] 0) (firstn 8 sops) (fst (qruns (qst0 sorc) (firstn 8 sops))) with QGood s => s_n s = 7%nat | _ => False end /\
  length (q_q st) = 3%nat /\ fst (qstep st (QOp (OCopy 2 1))) = RCopied true /\
  length (q_q (snd (qstep st (QOp (OCopy 2 1))))) = 1%nat /\ q_q (snd (qstep (snd (qstep st (QOp (OCopy 2 1)))) (QWait 7))) = [].
Proof. vm_compute. auto. Qed.
