(** C163, C164: programs with vector buffers and asynchronous copies on several streams. *)
From Verif Require Import Base BaseLemmas Copy BufProg BufProgProofs StreamProg StreamProgProofs StreamsProg StreamsProgProofs.
From Verif Require Stack Graph GraphExamples PropGraph.
From Coq Require Import ZArith List Bool Lia.
Import ListNotations.
Local Open Scope Z_scope.

(** Whatever the program, the order in which the streams go on, the answers of the memory resources and the garbage in
    new memory: as long as a buffer that is in use by a call that has not been waited for is neither accessed nor released by
    the host, nor written on another stream, nor used on another stream if this call writes it, all results are right, and nothing
    is left once all calls have been waited for. *)
Theorem C163_programs : forall orc ops rs st,
  rruns (rst0 orc) ops = (rs, st) -> upstream_ok (ulog (b_w (q_b (r_st st)))) ->
  match rjudge_all (mkS [] [] 0) [] ops rs with
  | RGood s _ => frees_ok (ulog (b_w (q_b (r_st st)))) /\
      length (ulive (ulog (b_w (q_b (r_st st))))) = length (filter (fun o => match o with Some a => negb (a_cap a =? 0) | None => false end) (s_l s)) /\
      (s_pend s = [] -> q_q (r_st st) = [])
  | RIllegal => True
  | RWrong => False
  end.
Proof. exact rprograms. Qed.
Print Assumptions C163_programs.

(** The right results are those of the synchronous copies. *)
Theorem C163_calls : forall ops rs s str, rjudge_all (mkS [] [] 0) [] ops rs = RGood s str ->
  judge_all [] (fst (rcalls ops rs)) (snd (rcalls ops rs)) = Good (s_l s).
Proof. intros ops rs s str H. exact (rcalls_judged ops rs (mkS [] [] 0) [] s str H). Qed.
Print Assumptions C163_calls.

(** What a pending operation writes is not touched by pending operations of other streams; what is touched is in buffers
    that exist and are in use by the calls that have issued the operations. *)
Theorem C163_apart : forall orc ops rs st s str, rruns (rst0 orc) ops = (rs, st) -> upstream_ok (ulog (b_w (q_b (r_st st)))) -> rjudge_all (mkS [] [] 0) [] ops rs = RGood s str ->
  let touches a x := match a with QSet n d _ => d <= x < d + n | QCopy n sr d => sr <= x < sr + n \/ d <= x < d + n end in
  (forall t a t' a' x, In (t, a) (q_q (r_st st)) -> In (t', a') (q_q (r_st st)) -> nth t str 0%nat <> nth t' str 0%nat ->
     match a with QSet n d _ => d <= x < d + n | QCopy n _ d => d <= x < d + n end -> ~ touches a' x) /\
  forall t a x, In (t, a) (q_q (r_st st)) -> touches a x ->
    exists i f b bs, nth_error (b_h (q_b (r_st st))) i = Some (Some f) /\ f_block f = Some b /\ bptr b <= x < bptr b + bsize b /\ In (t, bs) (s_pend s) /\ In i bs.
Proof. exact rprogram_apart. Qed.
Print Assumptions C163_apart.

(** The same with the resources of any graph. *)
Theorem C163_graph : forall B gs top bottom orc ops rs st,
  PropGraph.graph_ok B gs -> Graph.graph_runs B (map Graph.gnode_node gs) top bottom ->
  PropGraph.legal_graph_calls (B + length gs) top -> upstream_ok (map snd bottom) ->
  rruns (rst0 orc) ops = (rs, st) -> ulog (b_w (q_b (r_st st))) = map snd top ->
  rjudge_all (mkS [] [] 0) [] ops rs <> RWrong.
Proof.
  intros B gs top bottom orc ops rs st HG HR HC HU E HL. destruct (PropGraph.C143_graph B gs top bottom HG HR HC HU) as (A & _).
  rewrite <- HL in A. pose proof (C163_programs orc ops rs st E A) as H. intros EW. rewrite EW in H. exact H.
Qed.
Print Assumptions C163_graph.

(** Three buffers and two streams.  Calls 3, 4 and 7 are on stream 4, calls 5, 6 and 9 on stream 9; stream 9 is ahead of
    stream 4.  Buffer 0 is copied to buffer 1 on stream 9 once stream 4 has filled it, and meanwhile to buffer 2 on stream 4. *)
Definition torc (n : nat) : option Z := nth n [Some 65536; Some 65600; Some 65664] None.
Definition tops : list rop :=
  [ROp 0 (ONew 2 2 3 false (fun _ => 9)); ROp 0 (ONew 2 2 4 true (fun x => x mod 256)); ROp 0 (ONew 2 2 3 false (fun _ => 1));
   ROp 4 (OMemset 0 5); ROp 4 (OMemset 2 6); ROp 9 (OSetup 1); ROp 9 (OSize 1); ROp 4 (OMemset 0 7);
   RTick 3; RWait 7; ROp 4 (OCopy 0 2); ROp 9 (OCopy 0 1); RTick 8; RWait 9; ROp 9 (OGet 1 5); ROp 9 (OSize 1); RWait 8; ROp 0 (ODestroy 0); ROp 0 (OGet 2 0)].
(** A buffer that is being written on another stream can be neither read nor written, one that is being read only not written. *)
Example C163_clash : let st := snd (rruns (rst0 torc) (firstn 12 tops)) in
  match rjudge_all (mkS [] [] 0) [] (firstn 12 tops) (fst (rruns (rst0 torc) (firstn 12 tops))) with
  | RGood s str => map (fun o => match rjudge s str (ROp 5 o) (fst (rstep st (ROp 5 o))) with RGood _ _ => true | _ => false end)
                     [OMemset 0 3; OSize 0; OMemset 1 3; OSize 1; OMemset 2 3; OSize 2] = [false; true; false; false; false; false]
  | _ => False
  end.
Proof. vm_compute. reflexivity. Qed.
Example C163_ex : let p := rruns (rst0 torc) tops in
  fst p = [RDone; RDone; RDone; RDone; RDone; RDone; RNum 0; RDone; RDone; RDone; RCopied true; RCopied true; RDone; RDone; RByte 7; RNum 3; RDone; RDone; RByte 7] /\
  match rjudge_all (mkS [] [] 0) [] tops (fst p) with RGood s str => s_pend s = [] /\ str = [0; 0; 0; 4; 4; 9; 9; 4; 4; 9; 9; 9; 0; 0]%nat | _ => False end /\ upstream_ok (ulog (b_w (q_b (r_st (snd p))))) /\
  map fst (q_q (r_st (snd (rruns (rst0 torc) (firstn 8 tops))))) = [3; 4; 7]%nat /\ map fst (q_q (r_st (snd (rruns (rst0 torc) (firstn 12 tops))))) = [8; 9]%nat.
Proof. cbv zeta. split; [vm_compute; reflexivity|]. split; [vm_compute; split; reflexivity|]. split; [apply upstream_okb_ok; vm_compute; reflexivity|vm_compute; split; reflexivity]. Qed.
Example C163_graph_ex : let top := [(1%nat, UAlloc 20 16 (Some 65600)); (1%nat, UAlloc 58 16 (Some 65536))] in
  let bottom := [(0%nat, UAlloc 4096 16 (Some 65536))] in let gs := [Graph.GOne (Stack.LContiguous 4096) 0] in
  let ops := [ROp 0 (ONew 1 1 50 false (fun _ => 9)); ROp 0 (ONew 4 4 3 false (fun _ => 8)); ROp 1 (OMemset 0 1); ROp 2 (OMemset 1 6); RWait 3; ROp 0 (OGet 1 4)] in
  PropGraph.graph_ok 1 gs /\ Graph.graph_runs 1 (map Graph.gnode_node gs) top bottom /\
  PropGraph.legal_graph_calls (1 + length gs) top /\ upstream_ok (map snd bottom) /\
  ulog (b_w (q_b (r_st (snd (rruns (rst0 torc) ops))))) = map snd top /\
  fst (rruns (rst0 torc) ops) = [RDone; RDone; RDone; RDone; RDone; RByte 6] /\ map fst (q_q (r_st (snd (rruns (rst0 torc) ops)))) = [2%nat].
Proof.
  cbv zeta. split; [cbn; lia|]. split.
  { cbn [map Graph.gnode_node Graph.graph_runs length Nat.add Stack.layer_res].
    destruct (GraphExamples.greplay_node 1 (Graph.one_node (Stack.contiguous_res 4096) 0)
      [(1%nat, UAlloc 58 16 (Some 65536)); (1%nat, UAlloc 20 16 (Some 65600))]
      (Contiguous.mkC 4096 65536 65536) (Graph.tagged 0 (mkWorld [UAlloc 4096 16 (Some 65536)] (fun _ => Some 65536))) [(0%nat, UAlloc 4096 16 (Some 65536))]) as (s & w & S).
    - eexists. split; [reflexivity|]. exists (mkWorld [] (fun _ => Some 65536)). split; reflexivity.
    - vm_compute. reflexivity.
    - exists s, w, [(0%nat, UAlloc 4096 16 (Some 65536))]. split; [exact S|reflexivity]. }
  split. { cbn. repeat split; try lia; exists 4; split; lia. }
  split; [apply upstream_okb_ok; vm_compute; reflexivity|]. split; [vm_compute; reflexivity|]. split; vm_compute; reflexivity.
Qed.

(** C164: the rule for one stream (C161) is not enough for several: here a buffer is filled on one stream and copied on
    another one, which does not wait for the first. *)
Definition uops : list rop :=
  [ROp 0 (ONew 2 2 3 false (fun _ => 9)); ROp 0 (ONew 2 2 3 false (fun _ => 1)); ROp 4 (OMemset 0 5); ROp 9 (OCopy 0 1); RWait 3; ROp 0 (OGet 1 0)].
Theorem C164_streams_refuted : exists orc ops rs st, rruns (rst0 orc) ops = (rs, st) /\ upstream_ok (ulog (b_w (q_b (r_st st)))) /\
  qjudge_all (mkS [] [] 0) (map (fun o => match o with ROp _ o => QOp o | RWait k => QWait k | RTick _ => QTick 0 end) ops) rs = QWrong.
Proof.
  exists torc, uops, (fst (rruns (rst0 torc) uops)), (snd (rruns (rst0 torc) uops)).
  split; [apply surjective_pairing|]. split; [apply upstream_okb_ok; vm_compute; reflexivity|vm_compute; reflexivity].
Qed.
Print Assumptions C164_streams_refuted.
(** It is enough if all copy objects have the same stream. *)
Theorem C164_streams_partial : forall c orc ops rs st, (forall c' o, In (ROp c' o) ops -> c' = c) -> rruns (rst0 orc) ops = (rs, st) -> upstream_ok (ulog (b_w (q_b (r_st st)))) ->
  qjudge_all (mkS [] [] 0) (map (fun o => match o with ROp _ o => QOp o | RWait k => QWait k | RTick _ => QTick 0 end) ops) rs <> QWrong.
Proof. exact one_stream_ok. Qed.
Print Assumptions C164_streams_partial.
Example C164_ex : let ops := [ROp 4 (ONew 2 2 3 false (fun _ => 9)); ROp 4 (ONew 2 2 3 false (fun _ => 1)); ROp 4 (OMemset 0 5); ROp 4 (OCopy 0 1); RWait 3; ROp 4 (OGet 1 0)] in
  (forall c' o, In (ROp c' o) ops -> c' = 4%nat) /\ upstream_ok (ulog (b_w (q_b (r_st (snd (rruns (rst0 torc) ops)))))) /\
  fst (rruns (rst0 torc) ops) = [RDone; RDone; RDone; RCopied true; RDone; RByte 5].
Proof.
  cbv zeta. split; [|split; [apply upstream_okb_ok; vm_compute; reflexivity|vm_compute; reflexivity]].
  intros c' o H. cbn [In] in H. repeat (destruct H as [H|H]; [congruence|]). destruct H.
Qed.
