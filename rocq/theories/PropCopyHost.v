(** Properties C118 to C121: copies that create or resize their target, and the setup of
    jagged buffers. *)
From Verif Require Import Base BaseLemmas Placement EdmBuffer Copy CopyProofs CopyJaggedProofs CopyJaggedTheorems CopyExamples
  EdmCopy EdmCopyViews EdmCopyExamples CopyHost CopyHostProofs EdmToHost.

(** Device memory with the resizable inner vectors [ex_to] of sizes 2, 0 and 1. *)
Definition exd : cmem := put_bytes exm0 300 (flat_map le32 [2; 0; 1]).
Lemma exd_acc a n : 64 <= a -> a + n <= 512 -> acc exd a n.
Proof.
  intros H1 H2 x Hx. unfold exd, put_bytes. cbn [m_byte]. change (Z.of_nat (length (flat_map le32 [2; 0; 1]))) with 12.
  destruct ((300 <=? x) && (x <? 300 + 12)) eqn:E; [intros C; apply nth_error_None in C; cbn in C; lia|].
  unfold exm0. cbn [m_byte]. replace ((64 <=? x) && (x <? 512)) with true by lia. discriminate.
Qed.
Definition exd_srcs : list jsrc :=
  map (fun '(v, n) => mkSrc v n (bytes_at exd (v_ptr v) (Z.to_nat (n * 4)))) (combine ex_to [2; 0; 1]).
Definition exm_srcs : list jsrc :=
  map (fun '(v, n) => mkSrc v n (bytes_at exm (v_ptr v) (Z.to_nat (n * 4)))) (combine ex_from [2; 0; 1]).
Lemma exd_sizes : jagged_sizes exd (map s_view exd_srcs) (map s_n exd_srcs).
Proof.
  split; [repeat constructor; cbn; lia|]. right. exists 300. split; [|split; [lia|vm_compute; reflexivity]]. split; [lia|].
  intros [|[|[|i]]] v E; cbn in E; try discriminate; try (injection E as <-; reflexivity). destruct i; discriminate.
Qed.
Ltac src_tac L := unfold src_ok, view_ok; cbn [s_view s_n s_data v_cap v_sizep v_ptr];
  repeat split; try lia; try (apply L; lia); try (vm_compute; reflexivity).
Lemma exd_src_ok : Forall (src_ok 4 exd) exd_srcs.
Proof. repeat apply Forall_cons; try apply Forall_nil; src_tac exd_acc. Qed.
Lemma exm_src_ok : Forall (src_ok 4 exm) exm_srcs.
Proof. repeat apply Forall_cons; try apply Forall_nil; src_tac exm_acc. Qed.

(** ** C118: copy::to of jagged vectors
    The sizes are read by the host, through the pointers in the views.  They are in device
    memory for resizable buffers on a device. *)
Theorem C118_refuted : exists sz k srcs d m, 0 < sz /\ Forall (src_ok sz m) srcs /\ jagged_sizes m (map s_view srcs) (map s_n srcs) /\
  0 < d /\ acc m d (total (map s_n srcs) * sz) /\
  (forall s x, In s srcs -> within d (total (map s_n srcs) * sz) x ->
     ~ payload sz (s_view s) x /\ kind_check m k (m_dev m (v_ptr (s_view s))) (m_dev m x) = true) /\
  get_sizes (map s_view srcs) m = (Ret (map s_n srcs), m) /\ to_jagged sz k (map s_view srcs) d m = (UB, m).
Proof.
  exists 4, device_to_host, exd_srcs, 160, exd. split; [lia|]. split; [exact exd_src_ok|]. split; [exact exd_sizes|]. split; [lia|].
  change (total (map s_n exd_srcs) * 4) with 12. split; [apply exd_acc; lia|]. split.
  - intros s x I W. unfold payload, within in *. assert (D : m_dev exd x = false) by (cbn; lia). rewrite D.
    cbn in I; repeat (destruct I as [<-|I]; [split; [cbn [s_view v_ptr v_cap]; lia|reflexivity]|]); destruct I.
  - split; [apply (get_sizes_ok _ _ _ exd_sizes)|]. apply (to_jagged_device 4 device_to_host _ (mkV 2 300 400) [mkV 0 304 408; mkV 1 308 408]); [reflexivity|cbn; lia|reflexivity].
Qed.
Print Assumptions C118_refuted.
(** If the host can read the sizes: the elements arrive in a buffer of fixed size with the
    sizes of the source as its capacities, which lie in the memory from [d] on. *)
Theorem C118_to_partial sz k srcs d m : 0 < sz -> Forall (src_ok sz m) srcs -> jagged_sizes m (map s_view srcs) (map s_n srcs) ->
  (forall s, In s srcs -> v_sizep (s_view s) <> 0 -> m_dev m (v_sizep (s_view s)) = false) ->
  (0 < total (map s_n srcs) -> 0 < d) -> acc m d (total (map s_n srcs) * sz) ->
  (forall s x, In s srcs -> within d (total (map s_n srcs) * sz) x ->
     ~ payload sz (s_view s) x /\ kind_check m k (m_dev m (v_ptr (s_view s))) (m_dev m x) = true) ->
  exists to m', to_jagged sz k (map s_view srcs) d m = (Ret to, m') /\
    map v_cap to = map s_n srcs /\ fixed_sizes to /\
    Forall2 (fun s t => get_bytes m' (v_ptr t) (Z.to_nat (s_n s * sz)) = Some (s_data s)) srcs to /\
    ForallOrdPairs (payloads_apart sz) to /\ Forall (fun t => forall x, payload sz t x -> within d (total (map s_n srcs) * sz) x) to /\
    changes (within d (total (map s_n srcs) * sz)) m m'.
Proof. exact (fun H => to_jagged_thm sz H k srcs d m). Qed.
Print Assumptions C118_to_partial.
Example C118_ex : Forall (src_ok 4 exm) exm_srcs /\ jagged_sizes exm (map s_view exm_srcs) (map s_n exm_srcs) /\
  (forall s, In s exm_srcs -> v_sizep (s_view s) <> 0 /\ m_dev exm (v_sizep (s_view s)) = false) /\ total (map s_n exm_srcs) = 3 /\
  acc exm 400 (3 * 4) /\ (forall s x, In s exm_srcs -> within 400 (3 * 4) x ->
     ~ payload 4 (s_view s) x /\ kind_check exm host_to_device (m_dev exm (v_ptr (s_view s))) (m_dev exm x) = true).
Proof.
  split; [exact exm_src_ok|]. split; [exact ex_sizes|].
  split; [intros s I; cbn in I; repeat (destruct I as [<-|I]; [split; [cbn; lia|reflexivity]|]); destruct I|]. split; [reflexivity|]. split; [apply exm_acc; lia|].
  intros s x I W. unfold payload, within in *. assert (D : m_dev exm x = true) by (cbn; lia). rewrite D.
  cbn in I; repeat (destruct I as [<-|I]; [split; [cbn [s_view v_ptr v_cap]; lia|reflexivity]|]); destruct I.
Qed.

(** ** C119: from jagged vectors to vectors of vectors *)
Theorem C119_to_vectors sz k srcs qs m : 0 < sz -> length qs = length srcs -> Forall (src_ok sz m) srcs ->
  jagged_sizes m (map s_view srcs) (map s_n srcs) -> targets_ok sz k m srcs (vec_views (map s_n srcs) qs) ->
  exists m', copy_to_vecs sz k (map s_view srcs) qs m = (Ret (map s_n srcs), m') /\
    Forall2 (fun s q => get_bytes m' q (Z.to_nat (s_n s * sz)) = Some (s_data s)) srcs qs /\
    changes (fun x => exists s q, In (s, q) (combine srcs qs) /\ within q (s_n s * sz) x) m m'.
Proof. exact (fun H => copy_to_vecs_thm sz H k srcs qs m). Qed.
Print Assumptions C119_to_vectors.
(** The second vector is empty and has no memory. *)
Example C119_ex : Forall (src_ok 4 exd) exd_srcs /\ jagged_sizes exd (map s_view exd_srcs) (map s_n exd_srcs) /\
  targets_ok 4 device_to_host exd exd_srcs (vec_views (map s_n exd_srcs) [64; 0; 80]) /\
  m_dev exd 400 = true /\ m_dev exd 300 = true /\ m_strict exd = true.
Proof.
  split; [exact exd_src_ok|]. split; [exact exd_sizes|]. split; [|repeat split].
  change (vec_views (map s_n exd_srcs) [64; 0; 80]) with [mkV 2 0 64; mkV 0 0 0; mkV 1 0 80].
  split; [|split].
  - repeat apply Forall_cons; try apply Forall_nil; unfold view_ok; cbn [v_cap v_ptr]; repeat split; try lia; try (apply exd_acc; lia); intros x Hx; exfalso; lia.
  - repeat constructor; unfold payloads_apart, apart; cbn [v_ptr v_cap]; intros x Hx; lia.
  - intros s t I J. cbn in I, J; repeat (destruct I as [<-|I]; [repeat (destruct J as [<-|J]; [split; [unfold payloads_apart, apart; cbn [s_view v_ptr v_cap]; intros x Hx; lia|intros; reflexivity]|]); destruct J|]); destruct I.
Qed.

(** ** C120: from views of SoA containers to host containers
    [job_hsize], [job_place]: the sizes of the source and the memory of the target;
    [hosted]: the target has the size of the source; [job_outer]: number of elements. *)
Theorem C120_to_host k from m jobs n : k <> host_to_device -> k <> device_to_device ->
  Forall (fun j => vk (job_var j) = job_kind j) jobs ->
  ev_vars from = map job_from jobs -> Forall (job_ok k m) jobs -> ForallOrdPairs in_order jobs -> Forall hosted jobs ->
  (exists j, In j jobs /\ job_outer j <> None) -> (forall j n', In j jobs -> job_outer j = Some n' -> n' = n) ->
  (existsb is_jagged (map job_var jobs) = false -> source_size k from m n) ->
  exists m', edm_to_host (map job_var jobs) k from (map job_place jobs) m = (Ret (map job_hsize jobs), m') /\
    Forall (job_done m') jobs /\ changes (fun a => exists j, In j jobs /\ job_writes j a) m m'.
Proof. intros H1 H2. apply (edm_to_host_thm k from m jobs n). destruct k; auto; congruence. Qed.
Print Assumptions C120_to_host.
Theorem C120_differ k from ps m jobs i j a b : k <> host_to_device -> k <> device_to_device ->
  ev_vars from = map job_from jobs -> Forall (job_ok k m) jobs -> existsb is_jagged (map job_var jobs) = true ->
  In i jobs -> In j jobs -> job_outer i = Some a -> job_outer j = Some b -> a <> b ->
  edm_to_host (map job_var jobs) k from ps m = (Throw length_error, m).
Proof. intros H1 H2. apply (edm_to_host_differ k from ps m jobs i j a b). destruct k; auto; congruence. Qed.
Print Assumptions C120_differ.
Theorem C120_device vars k from ps m : k = host_to_device \/ k = device_to_device -> edm_to_host vars k from ps m = (UB, m).
Proof. exact (edm_to_host_device vars k from ps m). Qed.
Print Assumptions C120_device.

(** The reverse of the copy of C85: a resizable device container with a scalar, a vector
    and a jagged vector. *)
Definition emem2 : cmem := put_bytes emem 65536 (flat_map le32 [2; 0; 3]).
Definition jobs2 : list job :=
  [JScalar (mkVar KScalar 8 8) 65624 104 (bytes_at emem2 65624 8);
   JVector (mkVar KVector 4 4) (mkView 3 0 65632) (mkView 3 0 200) 3 (bytes_at emem2 65632 12);
   JJagged (mkVar KJagged 4 4) tinner hinner 65552 65552 500 500
     (map (fun '(x, y, n) => mkRow (cv x) (cv y) n (bytes_at emem2 (Placement.v_ptr x) (Z.to_nat (n * 4)))) (combine (combine tinner hinner) [2; 0; 3]))].
(** A resizable container without jagged vectors: two of at most five elements. *)
Definition emem3 : cmem := put_bytes emem 65536 (le32 2).
Definition jobs3 : list job :=
  [JScalar (mkVar KScalar 8 8) 65624 104 (bytes_at emem3 65624 8);
   JVector (mkVar KVector 4 4) (mkView 5 65536 65632) (mkView 2 0 200) 2 (bytes_at emem3 65632 8)].
Definition dview2 : edm_view := mkEV 3 (mkMem 12 65536) (mkMem 40 65624) (map job_from jobs2).
Definition dview3 : edm_view := mkEV 5 (mkMem 4 65536) (mkMem 28 65624) (map job_from jobs3).
Lemma emem2_acc a n : acc emem2 a n.
Proof. intros x _. apply put_byte, emem_byte. Qed.
Lemma emem3_acc a n : acc emem3 a n.
Proof. intros x _. apply put_byte, emem_byte. Qed.
Lemma jobs2_ok : Forall (job_ok device_to_host emem2) jobs2.
Proof.
  repeat apply Forall_cons; [..|apply Forall_nil]; (split; [reflexivity|]).
  - split; [discriminate|]. split; [discriminate|]. split; [vm_compute; reflexivity|]. split; [apply emem2_acc|]. split; [|reflexivity]. intros x Hx. cbn [ve_sz] in Hx. lia.
  - cbn [ve_sz]. split; [split; [cbn; lia|split; [reflexivity|reflexivity]]|]. split; [cbn; lia|]. split; [reflexivity|]. split; [vm_compute; reflexivity|].
    intros _. split; [discriminate|]. split; [discriminate|]. split; [apply emem2_acc|]. split; [intros x Hx; cbn in Hx; lia|]. split; [reflexivity|]. cbn. lia.
  - split; [reflexivity|]. split; [reflexivity|]. split; [|split; [split|split]].
    + cbn [map combine hinner tinner ve_sz]. repeat apply Forall_cons; [..|apply Forall_nil]; unfold row_ok, view_ok; cbn [r_from r_to r_n r_data cv v_cap v_ptr Placement.v_cap Placement.v_ptr];
        (split; [split; [lia|split; [lia|apply emem2_acc]]|]); (split; [split; [lia|split; [lia|apply emem2_acc]]|]); (split; [lia|]); (split; [lia|]); (split; [vm_compute; reflexivity|]); intros; reflexivity.
    + cbn [map combine hinner tinner ve_sz]. repeat constructor; unfold payloads_apart, apart; cbn [r_to cv v_ptr v_cap Placement.v_cap Placement.v_ptr]; intros x Hx; lia.
    + cbn [map combine hinner tinner ve_sz]. intros r r' I I'; cbn [In] in I, I'; repeat (destruct I as [<-|I]; [repeat (destruct I' as [<-|I']; [unfold payloads_apart, apart; cbn [r_from r_to cv v_ptr v_cap Placement.v_cap Placement.v_ptr]; intros x Hx; lia|]); destruct I'|]); destruct I.
    + split; [repeat constructor; cbn; lia|]. right. exists 65536. split; [|split; [lia|vm_compute; reflexivity]]. split; [lia|].
      intros [|[|[|i]]] v E; cbn in E; try discriminate; try (injection E as <-; reflexivity). destruct i; discriminate.
    + left. repeat constructor.
Qed.
Definition job_at (j : job) : Z := match j with JScalar _ _ _ _ => 104 | JVector _ _ _ _ _ => 200 | JJagged _ _ _ _ _ _ _ _ => 300 end.
Lemma jobs2_where j : In j (jobs2 ++ jobs3) -> (forall a, job_reads j a -> 65536 <= a) /\ forall a, job_writes j a -> job_at j <= a < job_at j + (if job_at j =? 300 then 200 else 12).
Proof.
  intros [<-|[<-|[<-|[<-|[<-|[]]]]]]; unfold job_writes; cbn [job_data job_sizes job_reads job_at ve_sz cv v_ptr v_sizep v_cap Placement.v_cap Placement.v_ptr Placement.v_size map combine hinner tinner sizes_range r_to r_from length Z.eqb Pos.eqb].
  - split; intros a Ha; unfold within in Ha; lia.
  - split; intros a Ha; unfold within in Ha; lia.
  - split; intros a [(r & Hr & Ha)|Ha]; try (unfold within in Ha; lia); cbn [In] in Hr; unfold payload in Ha;
      repeat (destruct Hr as [<-|Hr]; [cbn [r_from r_to v_ptr v_cap cv Placement.v_cap Placement.v_ptr] in Ha; unfold within in Ha; lia|]); destruct Hr.
  - split; intros a Ha; unfold within in Ha; lia.
  - split; intros a Ha; unfold within in Ha; lia.
Qed.
Lemma jobs2_order : ForallOrdPairs in_order jobs2 /\ ForallOrdPairs in_order jobs3.
Proof.
  assert (G : forall i j, In i (jobs2 ++ jobs3) -> In j (jobs2 ++ jobs3) -> job_at i <> job_at j -> in_order i j).
  { intros i j Hi Hj Hd. destruct (jobs2_where i Hi) as (R1 & W1). destruct (jobs2_where j Hj) as (R2 & W2). apply in_order_apart.
    - intros a A1 A2. specialize (W1 a A1). specialize (W2 a A2). destruct i, j; cbn [job_at Z.eqb Pos.eqb] in *; lia.
    - intros a A1 A2. specialize (W1 a A2). specialize (R2 a A1). destruct i; cbn [job_at Z.eqb Pos.eqb] in *; lia. }
  unfold jobs2, jobs3 in *. split; repeat first [apply FOP_nil|apply FOP_cons|apply Forall_nil|apply Forall_cons]; (apply G; [cbn [In app]; tauto|cbn [In app]; tauto|cbn; lia]).
Qed.
Example C120_ex : Forall (fun j => vk (job_var j) = job_kind j) jobs2 /\ ev_vars dview2 = map job_from jobs2 /\ Forall (job_ok device_to_host emem2) jobs2 /\
  ForallOrdPairs in_order jobs2 /\ Forall hosted jobs2 /\ map job_outer jobs2 = [None; Some 3; Some 3] /\ existsb is_jagged (map job_var jobs2) = true /\
  map job_hsize jobs2 = [HSScalar; HSVector 3; HSJagged [2; 0; 3]].
Proof.
  split; [repeat constructor|]. split; [reflexivity|]. split; [exact jobs2_ok|]. split; [apply jobs2_order|].
  split; [|repeat split]. repeat apply Forall_cons; [..|apply Forall_nil]; cbn [hosted]; repeat split; repeat constructor.
Qed.
Example C120_plain_ex : Forall (fun j => vk (job_var j) = job_kind j) jobs3 /\ ev_vars dview3 = map job_from jobs3 /\ Forall (job_ok device_to_host emem3) jobs3 /\
  ForallOrdPairs in_order jobs3 /\ Forall hosted jobs3 /\ map job_outer jobs3 = [None; Some 2] /\ existsb is_jagged (map job_var jobs3) = false /\
  source_size device_to_host dview3 emem3 2.
Proof.
  split; [repeat constructor|]. split; [reflexivity|]. split.
  { repeat apply Forall_cons; [..|apply Forall_nil]; (split; [reflexivity|]).
    - split; [discriminate|]. split; [discriminate|]. split; [vm_compute; reflexivity|]. split; [apply emem3_acc|]. split; [|reflexivity]. intros x Hx. cbn [ve_sz] in Hx. lia.
    - cbn [ve_sz]. split; [split; [cbn; lia|split; [cbn; lia|vm_compute; reflexivity]]|]. split; [cbn; lia|]. split; [reflexivity|]. split; [vm_compute; reflexivity|].
      intros _. split; [discriminate|]. split; [discriminate|]. split; [apply emem3_acc|]. split; [intros x Hx; cbn in Hx; lia|]. split; [reflexivity|]. cbn. lia. }
  split; [apply jobs2_order|]. split; [repeat apply Forall_cons; [..|apply Forall_nil]; cbn [hosted]; repeat split|]. split; [reflexivity|]. split; [reflexivity|].
  unfold source_size. cbn [dview3 ev_size m_ptr m_len Z.eqb]. split; [reflexivity|]. split; [vm_compute; reflexivity|]. split; [lia|reflexivity].
Qed.
(** A vector of two elements beside a jagged vector of three. *)
Definition jagged2 : job := nth 2 jobs2 (JScalar (mkVar KScalar 8 8) 0 0 []).
Definition jobs4 : list job := [JVector (mkVar KVector 4 4) (mkView 5 65536 65632) (mkView 2 0 200) 2 (bytes_at emem2 65632 8); jagged2].
Example C120_differ_ex : Forall (job_ok device_to_host emem2) jobs4 /\ existsb is_jagged (map job_var jobs4) = true /\ map job_outer jobs4 = [Some 2; Some 3].
Proof.
  split; [|split; reflexivity]. repeat apply Forall_cons; [| |apply Forall_nil].
  - split; [reflexivity|]. cbn [ve_sz]. split; [split; [cbn; lia|split; [cbn; lia|vm_compute; reflexivity]]|]. split; [cbn; lia|]. split; [reflexivity|]. split; [vm_compute; reflexivity|].
    intros _. split; [discriminate|]. split; [discriminate|]. split; [apply emem2_acc|]. split; [intros x Hx; cbn in Hx; lia|]. split; [reflexivity|]. cbn. lia.
  - pose proof jobs2_ok as H. rewrite Forall_forall in H. apply H. right. right. left. reflexivity.
Qed.

(** ** C121: setup of jagged buffers *)
Theorem C121_setup l host_ptr ptr q m :
  l <> [] -> Forall (fun v => 0 <= v_cap v < 2 ^ 32) l ->
  (fixed_sizes l \/ (sizes_at q l /\ 0 < q /\ acc m q (4 * Z.of_nat (length l)) /\
     apart q (4 * Z.of_nat (length l)) host_ptr (24 * Z.of_nat (length l)) /\ apart q (4 * Z.of_nat (length l)) ptr (24 * Z.of_nat (length l)))) ->
  get_bytes m host_ptr (24 * length l) = Some (flat_map view_bytes_of l) ->
  (ptr <> host_ptr -> ptr <> 0 /\ host_ptr <> 0 /\ acc m ptr (24 * Z.of_nat (length l)) /\
     apart host_ptr (24 * Z.of_nat (length l)) ptr (24 * Z.of_nat (length l)) /\
     kind_check m host_to_device (m_dev m host_ptr) (m_dev m ptr) = true) ->
  exists m', setup_described l host_ptr ptr m = (Ret tt, m') /\
    get_bytes m' ptr (24 * length l) = Some (flat_map view_bytes_of l) /\
    get_bytes m' host_ptr (24 * length l) = Some (flat_map view_bytes_of l) /\
    jagged_sizes m' l (map (fun v => if v_sizep v =? 0 then v_cap v else 0) l) /\
    changes (fun x => (ptr <> host_ptr /\ within ptr (24 * Z.of_nat (length l)) x) \/
                      (~ fixed_sizes l /\ within q (4 * Z.of_nat (length l)) x)) m m'.
Proof. exact (setup_described_thm l host_ptr ptr q m). Qed.
Print Assumptions C121_setup.
Theorem C121_empty host_ptr ptr m : setup_described [] host_ptr ptr m = (Ret tt, m).
Proof. reflexivity. Qed.
Print Assumptions C121_empty.
(** The description of [ex_to] at 64 for the host, to be copied to 420. *)
Definition exs : cmem := put_bytes exm0 64 (flat_map view_bytes_of ex_to).
Example C121_ex : sizes_at 300 ex_to /\ acc exs 300 12 /\ get_bytes exs 64 72 = Some (flat_map view_bytes_of ex_to) /\ acc exs 420 72 /\
  kind_check exs host_to_device (m_dev exs 64) (m_dev exs 420) = true /\ apart 300 12 64 72 /\ apart 300 12 420 72 /\ apart 64 72 420 72.
Proof.
  assert (A : forall a n, 64 <= a -> a + n <= 512 -> acc exs a n).
  { intros a n H1 H2 x Hx. unfold exs, put_bytes. cbn [m_byte]. change (Z.of_nat (length (flat_map view_bytes_of ex_to))) with 72.
    destruct ((64 <=? x) && (x <? 64 + 72)) eqn:E; [intros C; apply nth_error_None in C; change (length (flat_map view_bytes_of ex_to)) with 72%nat in C; lia|].
    unfold exm0. cbn [m_byte]. replace ((64 <=? x) && (x <? 512)) with true by lia. discriminate. }
  split; [exact ex_sizes_at|]. split; [apply A; lia|]. split; [vm_compute; reflexivity|]. split; [apply A; lia|]. split; [reflexivity|].
  repeat split; intros x Hx; lia.
Qed.
