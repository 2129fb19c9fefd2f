(** C154: programs with vector buffers. *)
From Verif Require Import Base BaseLemmas Copy BufProg BufProgProofs.
From Verif Require Stack Graph GraphExamples PropGraph.
From Coq Require Import ZArith List Bool Lia.
Import ListNotations.
Local Open Scope Z_scope.

(** Whatever the program, the answers of the memory resources and the garbage in new memory: as long as
    the calls are legal, all results are those of independent bounded lists; the resources get back
    only live blocks, and hold exactly one block for every buffer that is alive and not of capacity 0. *)
Theorem C154_programs : forall orc ops rs st,
  bruns (bst0 orc) ops = (rs, st) -> upstream_ok (ulog (b_w st)) ->
  match judge_all [] ops rs with
  | Good l => frees_ok (ulog (b_w st)) /\
      length (ulive (ulog (b_w st))) = length (filter (fun o => match o with Some a => negb (a_cap a =? 0) | None => false end) l)
  | Illegal => True
  | Wrong => False
  end.
Proof. exact programs. Qed.
Print Assumptions C154_programs.

(** The same with the resources of any graph: [top] are the calls of the program with the numbers of the
    resources, [bottom] those that reach the lowest resources, which keep to their contract. *)
Theorem C154_graph : forall B gs top bottom orc ops rs st,
  PropGraph.graph_ok B gs -> Graph.graph_runs B (map Graph.gnode_node gs) top bottom ->
  PropGraph.legal_graph_calls (B + length gs) top -> upstream_ok (map snd bottom) ->
  bruns (bst0 orc) ops = (rs, st) -> ulog (b_w st) = map snd top ->
  judge_all [] ops rs <> Wrong.
Proof.
  intros B gs top bottom orc ops rs st HG HR HC HU E HL. destruct (PropGraph.C143_graph B gs top bottom HG HR HC HU) as (A & _).
  rewrite <- HL in A. pose proof (C154_programs orc ops rs st E A) as H. intros EW. rewrite EW in H. exact H.
Qed.
Print Assumptions C154_graph.

(** In these lists, an operation changes only the variables that it is meant to change. *)
Theorem C154_independent : forall l o r l', judge l o r = Good l' ->
  forall k, (k < length l)%nat ->
    ~ In k (match o with
            | ODestroy i | OSetup i | OMemset i _ | OPut i _ _ | OSetSize i _ => [i]
            | OMove i j => [i; j]
            | OCopy _ j => [j]
            | ONew _ _ _ _ _ | OGet _ _ | OSize _ => []
            end) ->
    nth_error l' k = nth_error l k.
Proof. exact judge_independent. Qed.
Print Assumptions C154_independent.

(** Only one result is right, except that a construction may fail. *)
Theorem C154_determined : forall l o r r' l1 l2, judge l o r = Good l1 -> judge l o r' = Good l2 ->
  (r = r' /\ l1 = l2) \/ (exists esz eal cap rs g, o = ONew esz eal cap rs g /\ cap <> 0 /\ In r [RDone; RExn bad_alloc] /\ In r' [RDone; RExn bad_alloc]).
Proof. exact judge_determined. Qed.
Print Assumptions C154_determined.

(** Undefined behaviour is never right. *)
Theorem C154_defined : forall l o l', judge l o RUB <> Good l'.
Proof. exact judge_defined. Qed.
Print Assumptions C154_defined.

(** A program with two buffers; the second construction of a third one fails. *)
Definition prog_ops : list bop :=
  [ONew 4 4 3 true (fun _ => 9); ONew 4 4 5 false (fun x => x mod 256); ONew 8 8 1000 true (fun _ => 0); OSetup 0; OSize 0; OMemset 1 7; OMemset 0 257;
   OPut 0 4 99; OSetSize 0 2; OCopy 0 1; OGet 1 4; OGet 1 7; OGet 1 8; OSize 1; OCopy 1 0; OMove 0 1; OSize 1; OGet 1 4; ODestroy 1].
Definition prog_orc (n : nat) : option Z := nth n [Some 65536; Some 65568; None] None.
Example C154_ex : fst (bruns (bst0 prog_orc) prog_ops) =
    [RDone; RDone; RExn bad_alloc; RDone; RNum 0; RDone; RDone; RDone; RDone; RCopied true; RByte 99; RByte 1; RByte 7; RNum 5; RExn length_error; RDone; RNum 2; RByte 99; RDone] /\
  judge_all [] prog_ops (fst (bruns (bst0 prog_orc) prog_ops)) = Good [None; None; None] /\
  upstream_ok (ulog (b_w (snd (bruns (bst0 prog_orc) prog_ops)))) /\ ulive (ulog (b_w (snd (bruns (bst0 prog_orc) prog_ops)))) = [].
Proof. split; [vm_compute; reflexivity|]. split; [vm_compute; reflexivity|]. split; [apply upstream_okb_ok; vm_compute; reflexivity|vm_compute; reflexivity]. Qed.

(** The first operations, on a contiguous_memory_resource. *)
Example C154_graph_ex : let top := [(1%nat, UAlloc 28 16 (Some 65568)); (1%nat, UAlloc 24 16 (Some 65536))] in
  let bottom := [(0%nat, UAlloc 4096 16 (Some 65536))] in let gs := [Graph.GOne (Stack.LContiguous 4096) 0] in
  let ops := [ONew 4 4 3 true (fun _ => 9); ONew 4 4 5 false (fun x => x mod 256); OMemset 0 1; OMemset 1 7; OGet 0 4] in
  PropGraph.graph_ok 1 gs /\ Graph.graph_runs 1 (map Graph.gnode_node gs) top bottom /\
  PropGraph.legal_graph_calls (1 + length gs) top /\ upstream_ok (map snd bottom) /\
  ulog (b_w (snd (bruns (bst0 prog_orc) ops))) = map snd top /\ fst (bruns (bst0 prog_orc) ops) = [RDone; RDone; RDone; RDone; RByte 1].
Proof.
  cbv zeta. split; [cbn; lia|]. split.
  { cbn [map Graph.gnode_node Graph.graph_runs length Nat.add Stack.layer_res].
    destruct (GraphExamples.greplay_node 1 (Graph.one_node (Stack.contiguous_res 4096) 0)
      [(1%nat, UAlloc 24 16 (Some 65536)); (1%nat, UAlloc 28 16 (Some 65568))]
      (Contiguous.mkC 4096 65536 65536) (Graph.tagged 0 (mkWorld [UAlloc 4096 16 (Some 65536)] (fun _ => Some 65536))) [(0%nat, UAlloc 4096 16 (Some 65536))]) as (s & w & S).
    - eexists. split; [reflexivity|]. exists (mkWorld [] (fun _ => Some 65536)). split; reflexivity.
    - vm_compute. reflexivity.
    - exists s, w, [(0%nat, UAlloc 4096 16 (Some 65536))]. split; [exact S|reflexivity]. }
  split. { cbn. repeat split; try lia; exists 4; split; lia. }
  split; [apply upstream_okb_ok; vm_compute; reflexivity|]. split; vm_compute; reflexivity.
Qed.
