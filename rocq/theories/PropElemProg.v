(** C157, C158: programs that launch kernels which read and write elements of vector buffers. *)
From Verif Require Import Races RacesProofs.
From Verif Require Import Base BaseLemmas Copy BufProg BufProgProofs KernProg KernProgProofs ElemProg ElemProgProofs ElemMapProofs.
From Verif Require Stack Graph GraphExamples PropGraph.
From Coq Require Import ZArith List Bool Lia.
Import ListNotations.
Local Open Scope Z_scope.

(** Whatever the program, the threads, the schedules, the answers of the memory resources and the garbage
    in new memory: as long as the operations are legal, all results are those of independent lists on
    which the threads of a kernel run one after another. *)
Theorem C157_programs : forall orc ops rs st,
  eruns (bst0 orc) ops = (rs, st) -> upstream_ok (ulog (b_w st)) ->
  match ejudge_all [] ops rs with
  | Good l => frees_ok (ulog (b_w st)) /\
      length (ulive (ulog (b_w st))) = length (filter (fun o => match o with Some a => negb (a_cap a =? 0) | None => false end) l)
  | Illegal => True
  | Wrong => False
  end.
Proof. exact eprograms. Qed.
Print Assumptions C157_programs.

(** The same with the resources of any graph. *)
Theorem C157_graph : forall B gs top bottom orc ops rs st,
  PropGraph.graph_ok B gs -> Graph.graph_runs B (map Graph.gnode_node gs) top bottom ->
  PropGraph.legal_graph_calls (B + length gs) top -> upstream_ok (map snd bottom) ->
  eruns (bst0 orc) ops = (rs, st) -> ulog (b_w st) = map snd top ->
  ejudge_all [] ops rs <> Wrong.
Proof.
  intros B gs top bottom orc ops rs st HG HR HC HU E HL. destruct (PropGraph.C143_graph B gs top bottom HG HR HC HU) as (A & _).
  rewrite <- HL in A. pose proof (C157_programs orc ops rs st E A) as H. intros EW. rewrite EW in H. exact H.
Qed.
Print Assumptions C157_graph.

(** In these lists, the schedule does not matter, and undefined behaviour or unfinished threads are
    never right. *)
Theorem C157_schedules : forall l ps s1 s2 r l1 l2, ejudge l (ELaunch ps s1) r = Good l1 -> ejudge l (ELaunch ps s2) r = Good l2 -> l1 = l2 /\ r = RHost RDone.
Proof.
  intros l ps s1 s2 r l1 l2. cbn [ejudge]. destruct (sruns l ps) as [es|]; [|discriminate]. destruct (independent es && _); [|discriminate].
  destruct r as [[]| |]; try discriminate. intros H. injection H as <-. destruct (independent es && _); [|discriminate]. intros H. injection H as <-. split; reflexivity.
Qed.
Print Assumptions C157_schedules.

(** In particular, a kernel in which every thread writes a function [g] of its element of one buffer to its
    element of another, or of the same, buffer is legal and maps [g] over the elements. *)
Theorem C157_map : forall l i j a b n nb g nthr sched el, let k := Nat.min nthr (Z.to_nat n) in
  nth_error l i = Some (Some a) -> nth_error l j = Some (Some b) ->
  match a_size a with Fixed => n = a_cap a | Sized s => n = s | Unset => False end ->
  match a_size b with Fixed => nb = a_cap b | Sized s => nb = s | Unset => False end ->
  0 <= n -> 0 < a_esz a -> 0 < a_esz b ->
  n * a_esz a <= Z.of_nat (length (a_bytes a)) -> nb * a_esz b <= Z.of_nat (length (a_bytes b)) -> Z.of_nat k <= nb ->
  (forall t, (t < k)%nat -> firstn (Z.to_nat (a_esz a)) (skipn (t * Z.to_nat (a_esz a)) (a_bytes a)) = map Some (el t) /\ Z.of_nat (length (g (el t))) = a_esz b) ->
  (forall t, (t < nthr)%nat -> 1 + a_esz a + a_esz b <= Z.of_nat (count_occ Nat.eq_dec sched t)) ->
  ejudge l (ELaunch (map (map_thread i (a_esz a) j (a_esz b) g) (seq 0 nthr)) sched) (RHost RDone) =
    Good (upd l j (Some (mkA (a_esz b) (a_cap b) (a_size b) (map Some (concat (map (fun t => g (el t)) (seq 0 k))) ++ skipn (k * Z.to_nat (a_esz b)) (a_bytes b))))).
Proof.
  intros l i j a b n nb g nthr sched el k H1 H2 H3 H4 H5 H6 H7 H8 H9 H10 H11 H12.
  apply (map_kernel l i j a b n nb g nthr sched el); try assumption.
  - unfold a_num. destruct (a_size a); [subst; reflexivity|contradiction|subst; reflexivity].
  - unfold a_num. destruct (a_size b); [subst; reflexivity|contradiction|subst; reflexivity].
  - intros t Ht. destruct (H11 t Ht) as (A & B). split; [|exact B]. unfold a_elem. rewrite A. clear. induction (el t) as [|c x IH]; [reflexivity|].
    cbn [map all_known fold_right]. fold (all_known (map Some x)). rewrite IH. reflexivity.
Qed.
Print Assumptions C157_map.

(** A buffer with three elements of two bytes is changed in place, then mapped to another one; four threads
    each time, which take turns. *)
Definition turns : list nat := concat (repeat [3; 1; 0; 2]%nat 5).
Definition eorc (n : nat) : option Z := nth n [Some 65536; Some 65568] None.
Definition eops : list eop :=
  map (fun o => EOp (KHost o)) [ONew 2 2 4 true (fun _ => 9); ONew 1 1 3 false (fun x => x mod 256); OSetup 0; OMemset 0 5; OPut 0 3 40; OSetSize 0 3] ++
  [ELaunch (map (map_thread 0 2 0 2 (fun bs => rev (map (Z.add 1) bs))) (seq 0 4)) turns;
   ELaunch (map (map_thread 0 2 1 1 (fun bs => [fold_right Z.add 0 bs])) (seq 0 4)) turns] ++
  map (fun o => EOp (KHost o)) [OGet 0 2; OGet 0 3; OGet 1 0; OGet 1 1; OGet 1 2; ODestroy 0; ODestroy 1].
Example C157_ex : fst (eruns (bst0 eorc) eops) =
    map RHost [RDone; RDone; RDone; RDone; RDone; RDone; RDone; RDone; RByte 41; RByte 6; RByte 12; RByte 47; RByte 12; RDone; RDone] /\
  ejudge_all [] eops (fst (eruns (bst0 eorc) eops)) = Good [None; None] /\
  upstream_ok (ulog (b_w (snd (eruns (bst0 eorc) eops)))).
Proof. split; [vm_compute; reflexivity|]. split; [vm_compute; reflexivity|]. apply upstream_okb_ok; vm_compute; reflexivity. Qed.
Example C157_schedules_ex : let l := [Some (mkA 1 2 Fixed [Some 3; Some 4])] in let ps := map (map_thread 0 1 0 1 (map Z.succ)) (seq 0 2) in
  ejudge l (ELaunch ps [0; 0; 0; 1; 1; 1]%nat) (RHost RDone) = Good [Some (mkA 1 2 Fixed [Some 4; Some 5])] /\
  ejudge l (ELaunch ps [1; 0; 1; 0; 1; 0]%nat) (RHost RDone) = Good [Some (mkA 1 2 Fixed [Some 4; Some 5])].
Proof. split; vm_compute; reflexivity. Qed.
Example C157_map_ex : let a := mkA 2 4 (Sized 3) [Some 5; Some 5; Some 5; Some 40; Some 5; Some 5; Some 5; Some 5] in let b := mkA 1 3 Fixed [None; None; None] in
  let g bs := [fold_right Z.add 0 bs] in let el t := nth t [[5; 5]; [5; 40]; [5; 5]] [] in
  (forall t, (t < Nat.min 4 (Z.to_nat 3))%nat -> firstn (Z.to_nat (a_esz a)) (skipn (t * Z.to_nat (a_esz a)) (a_bytes a)) = map Some (el t) /\ Z.of_nat (length (g (el t))) = a_esz b) /\
  (forall t, (t < 4)%nat -> 1 + a_esz a + a_esz b <= Z.of_nat (count_occ Nat.eq_dec turns t)).
Proof.
  cbv zeta. split.
  - change (Nat.min 4 (Z.to_nat 3)) with 3%nat. intros [|[|[|t]]] H; try (exfalso; lia); split; reflexivity.
  - intros [|[|[|[|t]]]] H; try (exfalso; lia); vm_compute; discriminate.
Qed.
Example C157_graph_ex : let top := [(1%nat, UAlloc 26 16 (Some 65568)); (1%nat, UAlloc 28 16 (Some 65536))] in
  let bottom := [(0%nat, UAlloc 4096 16 (Some 65536))] in let gs := [Graph.GOne (Stack.LContiguous 4096) 0] in
  let ops := map (fun o => EOp (KHost o)) [ONew 4 4 5 false (fun _ => 9); ONew 2 2 9 false (fun _ => 8); OMemset 0 1] ++
     [ELaunch (map (map_thread 0 4 1 2 (firstn 2)) (seq 0 3)) (concat (repeat [0; 1; 2]%nat 7)); EOp (KHost (OGet 1 4))] in
  PropGraph.graph_ok 1 gs /\ Graph.graph_runs 1 (map Graph.gnode_node gs) top bottom /\
  PropGraph.legal_graph_calls (1 + length gs) top /\ upstream_ok (map snd bottom) /\
  ulog (b_w (snd (eruns (bst0 eorc) ops))) = map snd top /\
  fst (eruns (bst0 eorc) ops) = map RHost [RDone; RDone; RDone; RDone; RByte 1].
Proof.
  cbv zeta. split; [cbn; lia|]. split.
  { cbn [map Graph.gnode_node Graph.graph_runs length Nat.add Stack.layer_res].
    destruct (GraphExamples.greplay_node 1 (Graph.one_node (Stack.contiguous_res 4096) 0)
      [(1%nat, UAlloc 28 16 (Some 65536)); (1%nat, UAlloc 26 16 (Some 65568))]
      (Contiguous.mkC 4096 65536 65536) (Graph.tagged 0 (mkWorld [UAlloc 4096 16 (Some 65536)] (fun _ => Some 65536))) [(0%nat, UAlloc 4096 16 (Some 65536))]) as (s & w & S).
    - eexists. split; [reflexivity|]. exists (mkWorld [] (fun _ => Some 65536)). split; reflexivity.
    - vm_compute. reflexivity.
    - exists s, w, [(0%nat, UAlloc 4096 16 (Some 65536))]. split; [exact S|reflexivity]. }
  split. { cbn. repeat split; try lia; exists 4; split; lia. }
  split; [apply upstream_okb_ok; vm_compute; reflexivity|]. split; vm_compute; reflexivity.
Qed.

(** After any legal program, in a legal launch: thread [t] makes access [a] after the steps [before], thread
    [u] makes access [b] after the further steps [mid].  If they share a byte, both only read. *)
Theorem C158_races : forall orc ops rs st l ps sched r before mid m1 thr1 m2 thr2 t u p q a b,
  eruns (bst0 orc) ops = (rs, st) -> upstream_ok (ulog (b_w st)) -> ejudge_all [] ops rs = Good l ->
  ejudge l (ELaunch ps sched) r <> Illegal ->
  e_run (b_h st) (b_m st, ps) before = Ret (m1, thr1) -> e_run (b_h st) (m1, thr1) mid = Ret (m2, thr2) -> t <> u ->
  nth_error thr1 t = Some p -> nth_error thr2 u = Some q -> In a (p_access (b_h st) p) -> In b (p_access (b_h st) q) ->
  (exists x, a_ptr a <= x < a_ptr a + a_len a /\ a_ptr b <= x < a_ptr b + a_len b) ->
  (a_how a = plain_read \/ a_how a = atomic_load) /\ (a_how b = plain_read \/ a_how b = atomic_load).
Proof.
  intros orc ops rs st l ps sched r before mid m1 thr1 m2 thr2 t u p q a b E HU EJ EL R1 R2 D Hp Hq Ha Hb HX.
  destruct (eprogram_launch orc ops rs st l ps sched r E HU EJ EL) as (_ & H).
  destruct (H before mid m1 thr1 m2 thr2 t u p q a b R1 R2 D Hp Hq Ha Hb HX) as (W1 & W2).
  unfold writes in W1, W2. destruct (a_how a), (a_how b); try discriminate; split; auto.
Qed.
Print Assumptions C158_races.

(** No schedule of a legal launch, complete or not, has undefined behaviour. *)
Theorem C158_defined : forall orc ops rs st l ps sched r any,
  eruns (bst0 orc) ops = (rs, st) -> upstream_ok (ulog (b_w st)) -> ejudge_all [] ops rs = Good l ->
  ejudge l (ELaunch ps sched) r <> Illegal ->
  exists m' thr', e_run (b_h st) (b_m st, ps) any = Ret (m', thr').
Proof.
  intros orc ops rs st l ps sched r any E HU EJ EL. destruct (eprogram_launch orc ops rs st l ps sched r E HU EJ EL) as (H & _). exact (H any).
Qed.
Print Assumptions C158_defined.

(** The first six operations of the program above, and the first kernel: one thread is going to read the size, one to
    read and one to write its element. *)
Example C158_ex : exists st l, snd (eruns (bst0 eorc) (firstn 6 eops)) = st /\ upstream_ok (ulog (b_w st)) /\
  ejudge_all [] (firstn 6 eops) (fst (eruns (bst0 eorc) (firstn 6 eops))) = Good l /\
  let ps := map (map_thread 0 2 0 2 (fun bs => rev (map (Z.add 1) bs))) (seq 0 3) in
  ejudge l (ELaunch ps turns) RStuck <> Illegal /\
  match e_run (b_h st) (b_m st, ps) [0; 2; 2; 2]%nat with
  | Ret (m', thr) => map (p_access (b_h st)) thr =
      [[mkAccess 65536 4 atomic_load; mkAccess 65540 1 plain_read]; [mkAccess 65536 4 plain_read]; [mkAccess 65536 4 atomic_load; mkAccess 65544 1 plain_write]]
  | _ => False
  end.
Proof.
  eexists _, _. split; [reflexivity|]. split; [apply upstream_okb_ok; vm_compute; reflexivity|]. split; [vm_compute; reflexivity|].
  split; [vm_compute; discriminate|]. vm_compute. reflexivity.
Qed.
