(** C155: programs that launch kernels on vector buffers. *)
From Verif Require Import Base BaseLemmas Copy Kernel BufProg BufProgProofs KernProg KernProgProofs.
From Verif Require Stack Graph GraphExamples PropGraph.
From Coq Require Import ZArith List Bool Lia Permutation.
Import ListNotations.
Local Open Scope Z_scope.

(** Whatever the program, the schedules of its kernels, the answers of the memory resources and the garbage
    in new memory: as long as the calls are legal, all results are those of independent bounded lists. *)
Theorem C155_programs : forall orc ops rs st,
  kruns (bst0 orc) ops = (rs, st) -> upstream_ok (ulog (b_w st)) ->
  match kjudge_all [] ops rs with
  | Good l => frees_ok (ulog (b_w st)) /\
      length (ulive (ulog (b_w st))) = length (filter (fun o => match o with Some a => negb (a_cap a =? 0) | None => false end) l)
  | Illegal => True
  | Wrong => False
  end.
Proof. exact kprograms. Qed.
Print Assumptions C155_programs.

(** The same with the resources of any graph. *)
Theorem C155_graph : forall B gs top bottom orc ops rs st,
  PropGraph.graph_ok B gs -> Graph.graph_runs B (map Graph.gnode_node gs) top bottom ->
  PropGraph.legal_graph_calls (B + length gs) top -> upstream_ok (map snd bottom) ->
  kruns (bst0 orc) ops = (rs, st) -> ulog (b_w st) = map snd top ->
  kjudge_all [] ops rs <> Wrong.
Proof.
  intros B gs top bottom orc ops rs st HG HR HC HU E HL. destruct (PropGraph.C143_graph B gs top bottom HG HR HC HU) as (A & _).
  rewrite <- HL in A. pose proof (C155_programs orc ops rs st E A) as H. intros EW. rewrite EW in H. exact H.
Qed.
Print Assumptions C155_graph.

(** In these lists, a kernel keeps the elements of its output, appends what the threads have computed
    from the elements of its input, in some order, and changes nothing else. *)
Theorem C155_appends : forall l i j g nthr sched r l', kjudge l (KLaunch i j g nthr sched) r = Good l' ->
  exists a b n k new, nth_error l i = Some (Some a) /\ nth_error l j = Some (Some b) /\ i <> j /\
    match a_size a with Fixed => n = a_cap a | Sized s => n = s | Unset => False end /\ a_size b = Sized k /\
    Permutation new (flat_map (fun t =>
        if Z.of_nat t <? n
        then match fold_right (fun x y => match x, y with Some c, Some l => Some (c :: l) | _, _ => None end) (Some [])
                     (firstn (Z.to_nat (a_esz a)) (skipn (t * Z.to_nat (a_esz a)) (a_bytes a))) with
             | Some e => match g e with Some v => [v] | None => [] end
             | None => []
             end
        else []) (seq 0 nthr)) /\
    let k' := k + Z.of_nat (length new) in
    k' <= a_cap b /\
    (forall q, q <> j -> nth_error l' q = nth_error l q) /\
    nth_error l' j = Some (Some (mkA (a_esz b) (a_cap b) (Sized k')
      (firstn (Z.to_nat (k * a_esz b)) (a_bytes b) ++ map Some (concat new) ++ skipn (Z.to_nat (k' * a_esz b)) (a_bytes b)))).
Proof.
  intros l i j g nthr sched r l' H. destruct (launch_appends _ _ _ _ _ _ _ _ H) as (a & b & n & k & new & H1 & H2 & H3 & H4 & H5 & H6 & H7 & ->).
  exists a, b, n, k, new. split; [exact H1|]. split; [exact H2|]. split; [exact H3|].
  split. { unfold a_num in H4. destruct (a_size a); congruence. } split; [exact H5|]. split.
  - rewrite H6. unfold somes, appended, a_elem, all_known. clear. induction (seq 0 nthr) as [|t s IH]; [constructor|]. cbn [map flat_map].
    apply Permutation_app; [|exact IH]. destruct (Z.of_nat t <? n); [|constructor]. destruct (fold_right _ _ _); [|constructor]. destruct (g l); repeat constructor.
  - split; [exact H7|]. split.
    + intros q Hq. rewrite nth_upd. replace (Nat.eqb j q) with false by (symmetry; apply Nat.eqb_neq; congruence). reflexivity.
    + rewrite nth_upd, Nat.eqb_refl, H2. reflexivity.
Qed.
Print Assumptions C155_appends.

(** Undefined behaviour is never right, and all threads return. *)
Theorem C155_defined : forall l o r l', kjudge l o r = Good l' -> r <> RHost RUB /\ r <> RStuck.
Proof.
  intros l [o|i j g nthr sched] r l' H; cbn [kjudge] in H.
  - destruct r as [r|idxs|]; try discriminate. split; [|discriminate]. intros E. injection E as ->. exact (judge_defined l o l' H).
  - destruct (alive l i) as [a|]; [|discriminate]. destruct (alive l j) as [b|]; [|discriminate]. destruct (a_num a); [|discriminate]. destruct (a_size b); try discriminate.
    cbv zeta in H. destruct (negb (Nat.eqb i j) && _ && _ && _ && _); [|discriminate]. destruct r; try discriminate. split; discriminate.
Qed.
Print Assumptions C155_defined.

(** Three elements of two bytes are filtered into a buffer with space for four, twice, by four threads:
    those whose first byte is above 10, with their bytes exchanged. *)
Definition kfilter (e : list Z) : option (list Z) := match e with [x; y] => if 10 <? x then Some [y; x] else None | _ => None end.
Definition kops : list kop :=
  [KHost (ONew 2 2 3 false (fun _ => 9)); KHost (ONew 2 2 4 true (fun x => x mod 256)); KHost (OMemset 0 7); KHost (OPut 0 0 20); KHost (OPut 0 4 30); KHost (OSetup 1);
   KLaunch 0 1 kfilter 4 [2; 0; 1; 0; 2; 2; 0; 0; 2; 3; 2; 0; 1; 1; 1; 1; 3; 3; 3; 3]%nat; KHost (OSize 1);
   KLaunch 0 1 kfilter 3 [0; 0; 0; 2; 2; 2; 1; 1; 1; 0; 0; 1; 1; 2; 2]%nat; KHost (OSize 1); KHost (OGet 1 0); KHost (OGet 1 1); KHost (OGet 1 3); KHost (OGet 1 5); KHost (ODestroy 0); KHost (OGet 1 7)].
Definition korc (n : nat) : option Z := nth n [Some 65536; Some 65568] None.
Example C155_ex : fst (kruns (bst0 korc) kops) =
    [RHost RDone; RHost RDone; RHost RDone; RHost RDone; RHost RDone; RHost RDone;
     RIdx [Some 1; None; Some 0; None]; RHost (RNum 2); RIdx [Some 2; None; Some 3]; RHost (RNum 4);
     RHost (RByte 7); RHost (RByte 30); RHost (RByte 20); RHost (RByte 20); RHost RDone; RHost (RByte 30)] /\
  kjudge_all [] kops (fst (kruns (bst0 korc) kops)) =
    Good [None; Some (mkA 2 4 (Sized 4) (map Some [7; 30; 7; 20; 7; 20; 7; 30]))] /\
  upstream_ok (ulog (b_w (snd (kruns (bst0 korc) kops)))) /\ length (ulive (ulog (b_w (snd (kruns (bst0 korc) kops))))) = 1%nat.
Proof. split; [vm_compute; reflexivity|]. split; [vm_compute; reflexivity|]. split; [apply upstream_okb_ok; vm_compute; reflexivity|vm_compute; reflexivity]. Qed.

(** The legality of a launch does not depend on the results: a launch with too little space is illegal. *)
Example C155_full_ex : kjudge_all [] (kops ++ [KHost (ONew 2 2 3 false (fun _ => 9)); KHost (OMemset 2 11); KLaunch 2 1 kfilter 1 [0; 0; 0; 0; 0]%nat])
  (fst (kruns (bst0 (fun n => nth n [Some 65536; Some 65568; Some 65700] None)) (kops ++ [KHost (ONew 2 2 3 false (fun _ => 9)); KHost (OMemset 2 11); KLaunch 2 1 kfilter 1 [0; 0; 0; 0; 0]%nat]))) = Illegal.
Proof. vm_compute. reflexivity. Qed.

(** Two buffers of a contiguous_memory_resource. *)
Example C155_graph_ex : let top := [(1%nat, UAlloc 36 16 (Some 65568)); (1%nat, UAlloc 20 16 (Some 65536))] in
  let bottom := [(0%nat, UAlloc 4096 16 (Some 65536))] in let gs := [Graph.GOne (Stack.LContiguous 4096) 0] in
  let ops := [KHost (ONew 4 4 3 false (fun _ => 9)); KHost (ONew 4 4 6 true (fun x => x mod 256)); KHost (OMemset 0 1); KHost (OSetup 1);
              KLaunch 0 1 (fun e => Some e) 1 [0; 0; 0; 0; 0]%nat; KHost (OGet 1 0)] in
  PropGraph.graph_ok 1 gs /\ Graph.graph_runs 1 (map Graph.gnode_node gs) top bottom /\
  PropGraph.legal_graph_calls (1 + length gs) top /\ upstream_ok (map snd bottom) /\
  ulog (b_w (snd (kruns (bst0 (fun n => nth n [Some 65536; Some 65568] None)) ops))) = map snd top /\
  fst (kruns (bst0 (fun n => nth n [Some 65536; Some 65568] None)) ops) = [RHost RDone; RHost RDone; RHost RDone; RHost RDone; RIdx [Some 0]; RHost (RByte 1)].
Proof.
  cbv zeta. split; [cbn; lia|]. split.
  { cbn [map Graph.gnode_node Graph.graph_runs length Nat.add Stack.layer_res].
    destruct (GraphExamples.greplay_node 1 (Graph.one_node (Stack.contiguous_res 4096) 0)
      [(1%nat, UAlloc 20 16 (Some 65536)); (1%nat, UAlloc 36 16 (Some 65568))]
      (Contiguous.mkC 4096 65536 65536) (Graph.tagged 0 (mkWorld [UAlloc 4096 16 (Some 65536)] (fun _ => Some 65536))) [(0%nat, UAlloc 4096 16 (Some 65536))]) as (s & w & S).
    - eexists. split; [reflexivity|]. exists (mkWorld [] (fun _ => Some 65536)). split; reflexivity.
    - vm_compute. reflexivity.
    - exists s, w, [(0%nat, UAlloc 4096 16 (Some 65536))]. split; [exact S|reflexivity]. }
  split. { cbn. repeat split; try lia; exists 4; split; lia. }
  split; [apply upstream_okb_ok; vm_compute; reflexivity|]. split; vm_compute; reflexivity.
Qed.
