(** C159, C160: programs that launch kernels which add to elements of vector buffers with atomic operations. *)
From Verif Require Import Races RacesProofs.
From Verif Require Import Base BaseLemmas Copy BufProg BufProgProofs KernProg KernProgProofs ElemProg ElemProgProofs HistProg HistProgProofs.
From Verif Require Stack Graph GraphExamples PropGraph.
From Coq Require Import ZArith List Bool Lia.
Import ListNotations.
Local Open Scope Z_scope.

(** Whatever the program, the threads, the schedules, the answers of the memory resources and the garbage
    in new memory: as long as the operations are legal, all results are those of independent lists to
    which the additions of a kernel are applied one after another. *)
Theorem C159_programs : forall orc ops rs st,
  hruns (bst0 orc) ops = (rs, st) -> upstream_ok (ulog (b_w st)) ->
  match hjudge_all [] ops rs with
  | Good l => frees_ok (ulog (b_w st)) /\
      length (ulive (ulog (b_w st))) = length (filter (fun o => match o with Some a => negb (a_cap a =? 0) | None => false end) l)
  | Illegal => True
  | Wrong => False
  end.
Proof. exact hprograms. Qed.
Print Assumptions C159_programs.

(** The same with the resources of any graph. *)
Theorem C159_graph : forall B gs top bottom orc ops rs st,
  PropGraph.graph_ok B gs -> Graph.graph_runs B (map Graph.gnode_node gs) top bottom ->
  PropGraph.legal_graph_calls (B + length gs) top -> upstream_ok (map snd bottom) ->
  hruns (bst0 orc) ops = (rs, st) -> ulog (b_w st) = map snd top ->
  hjudge_all [] ops rs <> Wrong.
Proof.
  intros B gs top bottom orc ops rs st HG HR HC HU E HL. destruct (PropGraph.C143_graph B gs top bottom HG HR HC HU) as (A & _).
  rewrite <- HL in A. pose proof (C159_programs orc ops rs st E A) as H. intros EW. rewrite EW in H. exact H.
Qed.
Print Assumptions C159_graph.

(** In these lists, a kernel adds to every word the sum of all that the threads add to it, and changes nothing
    else. *)
Theorem C159_sums : forall orc ops rs st l i j g nthr sched r l',
  hruns (bst0 orc) ops = (rs, st) -> upstream_ok (ulog (b_w st)) -> hjudge_all [] ops rs = Good l ->
  hjudge l (HLaunch i j g nthr sched) r = Good l' ->
  exists a b n bytes el, r = RHost RDone /\
    nth_error l i = Some (Some a) /\ nth_error l j = Some (Some b) /\ i <> j /\
    match a_size a with Fixed => n = a_cap a | Sized s => n = s | Unset => False end /\
    (forall t, (t < nthr)%nat -> Z.of_nat t < n -> firstn (Z.to_nat (a_esz a)) (skipn (t * Z.to_nat (a_esz a)) (a_bytes a)) = map Some (el t)) /\
    l' = upd l j (Some (mkA (a_esz b) (a_cap b) (a_size b) bytes)) /\ length bytes = length (a_bytes b) /\
    forall idx, 0 <= idx ->
      (forall old, firstn 4 (skipn (Z.to_nat idx * 4) (a_bytes b)) = map Some old ->
         exists new, firstn 4 (skipn (Z.to_nat idx * 4) bytes) = map Some new /\
           unle32 new mod 2 ^ 32 =
             (unle32 old + fold_right Z.add 0 (map (fun t => if Z.of_nat t <? n then fold_right Z.add 0 (map snd (filter (fun p => fst p =? idx) (g (el t)))) else 0) (seq 0 nthr))) mod 2 ^ 32) /\
      ((forall t p, (t < nthr)%nat -> Z.of_nat t < n -> In p (g (el t)) -> fst p <> idx) ->
         firstn 4 (skipn (Z.to_nat idx * 4) bytes) = firstn 4 (skipn (Z.to_nat idx * 4) (a_bytes b))).
Proof.
  intros orc ops rs st l i j g nthr sched r l' E HU EJ EL.
  destruct (hprogram_sums orc ops rs st l i j g nthr sched r l' E HU EJ EL) as (a & b & n & bytes & el & H1 & H2 & H3 & H4 & H5 & H6).
  exists a, b, n, bytes, el. repeat (split; [assumption|]). split; [|exact H6].
  unfold a_num in H5. destruct (a_size a); [|discriminate|]; injection H5 as ->; reflexivity.
Qed.
Print Assumptions C159_sums.

(** A histogram: six threads count the values of a buffer with five elements in a buffer with three counters. *)
Definition count_it (bs : list Z) : list (Z * Z) := map (fun c => (c, 1)) bs.
Definition hturns : list nat := concat (repeat [3; 1; 0; 5; 2; 4]%nat 3).
Definition horc (n : nat) : option Z := nth n [Some 65536; Some 65568] None.
Definition hops : list hop :=
  map (fun o => HOp (EOp (KHost o))) [ONew 1 1 5 false (fun _ => 9); ONew 4 4 3 true (fun x => x mod 256); OSetup 1; OSetSize 1 3; OMemset 0 2; OMemset 1 0; OPut 0 1 0; OPut 0 4 0; OPut 1 8 255] ++
  [HLaunch 0 1 count_it 6 hturns] ++
  map (fun o => HOp (EOp (KHost o))) [OGet 1 0; OGet 1 4; OGet 1 8; OGet 1 9; ODestroy 0; ODestroy 1].
Example C159_ex : fst (hruns (bst0 horc) hops) =
    map RHost [RDone; RDone; RDone; RDone; RDone; RDone; RDone; RDone; RDone; RDone; RByte 2; RByte 0; RByte 2; RByte 1; RDone; RDone] /\
  hjudge_all [] hops (fst (hruns (bst0 horc) hops)) = Good [None; None] /\
  upstream_ok (ulog (b_w (snd (hruns (bst0 horc) hops)))).
Proof. split; [vm_compute; reflexivity|]. split; [vm_compute; reflexivity|]. apply upstream_okb_ok; vm_compute; reflexivity. Qed.
Example C159_sums_ex : exists st l l', snd (hruns (bst0 horc) (firstn 9 hops)) = st /\ upstream_ok (ulog (b_w st)) /\
  hjudge_all [] (firstn 9 hops) (fst (hruns (bst0 horc) (firstn 9 hops))) = Good l /\
  hjudge l (HLaunch 0 1 count_it 6 hturns) (RHost RDone) = Good l' /\
  nth_error l' 1 = Some (Some (mkA 4 3 (Sized 3) (map Some [2; 0; 0; 0; 0; 0; 0; 0; 2; 1; 0; 0]))).
Proof.
  eexists _, _, _. split; [reflexivity|]. split; [apply upstream_okb_ok; vm_compute; reflexivity|]. split; [vm_compute; reflexivity|].
  split; vm_compute; reflexivity.
Qed.
Example C159_graph_ex : let top := [(1%nat, UAlloc 20 16 (Some 65568)); (1%nat, UAlloc 25 16 (Some 65536))] in
  let bottom := [(0%nat, UAlloc 4096 16 (Some 65536))] in let gs := [Graph.GOne (Stack.LContiguous 4096) 0] in
  let ops := map (fun o => HOp (EOp (KHost o))) [ONew 1 1 17 false (fun _ => 9); ONew 4 4 3 false (fun _ => 8); OMemset 0 1; OMemset 1 0] ++
     [HLaunch 0 1 count_it 6 hturns; HOp (EOp (KHost (OGet 1 4)))] in
  PropGraph.graph_ok 1 gs /\ Graph.graph_runs 1 (map Graph.gnode_node gs) top bottom /\
  PropGraph.legal_graph_calls (1 + length gs) top /\ upstream_ok (map snd bottom) /\
  ulog (b_w (snd (hruns (bst0 horc) ops))) = map snd top /\
  fst (hruns (bst0 horc) ops) = map RHost [RDone; RDone; RDone; RDone; RDone; RByte 6].
Proof.
  cbv zeta. split; [cbn; lia|]. split.
  { cbn [map Graph.gnode_node Graph.graph_runs length Nat.add Stack.layer_res].
    destruct (GraphExamples.greplay_node 1 (Graph.one_node (Stack.contiguous_res 4096) 0)
      [(1%nat, UAlloc 25 16 (Some 65536)); (1%nat, UAlloc 20 16 (Some 65568))]
      (Contiguous.mkC 4096 65536 65536) (Graph.tagged 0 (mkWorld [UAlloc 4096 16 (Some 65536)] (fun _ => Some 65536))) [(0%nat, UAlloc 4096 16 (Some 65536))]) as (s & w & S).
    - eexists. split; [reflexivity|]. exists (mkWorld [] (fun _ => Some 65536)). split; reflexivity.
    - vm_compute. reflexivity.
    - exists s, w, [(0%nat, UAlloc 4096 16 (Some 65536))]. split; [exact S|reflexivity]. }
  split. { cbn. repeat split; try lia; exists 4; split; lia. }
  split; [apply upstream_okb_ok; vm_compute; reflexivity|]. split; vm_compute; reflexivity.
Qed.

(** After any legal program, in a legal launch: a thread makes access [a] after the steps [before], a thread
    makes access [b] after the further steps [mid].  If they share a byte and one writes, both are atomic. *)
Theorem C160_races : forall orc ops rs st l i j g nthr sched r f u before mid m1 thr1 m2 thr2 t s p q a b,
  hruns (bst0 orc) ops = (rs, st) -> upstream_ok (ulog (b_w st)) -> hjudge_all [] ops rs = Good l ->
  hjudge l (HLaunch i j g nthr sched) r <> Illegal ->
  get_buf st i = Some f -> get_buf st j = Some u ->
  h_run (f_esz f) (f_view f) (f_view u) g (b_m st, map HSize (seq 0 nthr)) before = Ret (m1, thr1) ->
  h_run (f_esz f) (f_view f) (f_view u) g (m1, thr1) mid = Ret (m2, thr2) ->
  nth_error thr1 t = Some p -> nth_error thr2 s = Some q ->
  In a (h_access (f_esz f) (f_view f) (f_view u) p) -> In b (h_access (f_esz f) (f_view f) (f_view u) q) ->
  (exists x, a_ptr a <= x < a_ptr a + a_len a /\ a_ptr b <= x < a_ptr b + a_len b) ->
  (a_how a = atomic_add \/ a_how a = plain_write \/ a_how b = atomic_add \/ a_how b = plain_write) ->
  (a_how a = atomic_add \/ a_how a = atomic_load) /\ (a_how b = atomic_add \/ a_how b = atomic_load).
Proof.
  intros orc ops rs st l i j g nthr sched r f u before mid m1 thr1 m2 thr2 t s p q a b E HU EJ EL Gf Gu R1 R2 Hp Hq Ha Hb HS HW.
  destruct (hprogram_launch orc ops rs st l i j g nthr sched r f u E HU EJ EL Gf Gu) as (_ & H).
  pose proof (H before mid m1 thr1 m2 thr2 t s p q a b R1 R2 Hp Hq Ha Hb) as NC. exact (no_conflict_atomic a b NC HS HW).
Qed.
Print Assumptions C160_races.

(** No schedule of a legal launch, complete or not, has undefined behaviour. *)
Theorem C160_defined : forall orc ops rs st l i j g nthr sched r f u any,
  hruns (bst0 orc) ops = (rs, st) -> upstream_ok (ulog (b_w st)) -> hjudge_all [] ops rs = Good l ->
  hjudge l (HLaunch i j g nthr sched) r <> Illegal -> get_buf st i = Some f -> get_buf st j = Some u ->
  exists m' thr', h_run (f_esz f) (f_view f) (f_view u) g (b_m st, map HSize (seq 0 nthr)) any = Ret (m', thr').
Proof.
  intros orc ops rs st l i j g nthr sched r f u any E HU EJ EL Gf Gu. destruct (hprogram_launch orc ops rs st l i j g nthr sched r f u E HU EJ EL Gf Gu) as (H & _). exact (H any).
Qed.
Print Assumptions C160_defined.

(** The first nine operations of the program above, and the kernel: thread 0 is going to read the size, thread 1 to read its
    element, and threads 2 and 3 to add to the same counter. *)
Example C160_ex : exists st l f u, snd (hruns (bst0 horc) (firstn 9 hops)) = st /\ upstream_ok (ulog (b_w st)) /\
  hjudge_all [] (firstn 9 hops) (fst (hruns (bst0 horc) (firstn 9 hops))) = Good l /\
  hjudge l (HLaunch 0 1 count_it 6 hturns) RStuck <> Illegal /\ get_buf st 0 = Some f /\ get_buf st 1 = Some u /\
  match h_run (f_esz f) (f_view f) (f_view u) count_it (b_m st, map HSize (seq 0 4)) [1; 2; 2; 3; 3]%nat with
  | Ret (m', thr) => map (h_access (f_esz f) (f_view f) (f_view u)) thr =
      [[]; [mkAccess 65537 1 plain_read]; [mkAccess 65568 4 atomic_load; mkAccess 65580 4 atomic_add]; [mkAccess 65568 4 atomic_load; mkAccess 65580 4 atomic_add]]
  | _ => False
  end.
Proof.
  eexists _, _, _, _. split; [reflexivity|]. split; [apply upstream_okb_ok; vm_compute; reflexivity|]. split; [vm_compute; reflexivity|].
  split; [vm_compute; discriminate|]. split; [vm_compute; reflexivity|]. split; [vm_compute; reflexivity|]. vm_compute. reflexivity.
Qed.
