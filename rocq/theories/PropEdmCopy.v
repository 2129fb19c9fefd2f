(** Properties C82 to C87: copies, setup and memset of SoA containers. *)
From Verif Require Import Base BaseLemmas IntMath Placement PlacementProofs EdmBuffer EdmBufferTheorems EdmBufferFinal
  EdmCopyLayout Copy CopyProofs CopyJaggedProofs CopyJaggedTheorems EdmCopy EdmCopyProofs EdmCopyViews EdmCopyExamples.

(** ** C82: from buffer to buffer
    [built]: what the constructors return (C50).  [bytes_of m b] are the contents of the
    block [b]. *)
Theorem C82_same_kind vars caps rs e1 e2 k m d1 d2 : schema_ok vars caps -> (forall v, In v vars -> ve_al v <= 16) ->
  built vars caps rs e1 -> built vars caps rs e2 -> 0 < m_len (eb_payload e1) ->
  region m (eb_mem e1) d1 -> region m (eb_mem e2) d2 -> ~ overlap (eb_mem e1) (eb_mem e2) -> kind_check m k d1 d2 = true ->
  exists m', edm_copy vars k (buffer_view e1) (buffer_view e2) m = (Ret tt, m') /\
    Forall2 (fun b1 b2 => bytes_of m' b2 = bytes_of m b1) (all_payloads vars e1) (all_payloads vars e2) /\
    Forall2 (fun b1 b2 => bytes_of m' b2 = bytes_of m b1) (all_counters vars rs e1) (all_counters vars rs e2) /\
    changes (fun x => in_block x (mem_block (eb_payload e2)) \/ in_block x (mem_block (eb_size e2))) m m'.
Proof. exact (edm_copy_same vars caps rs e1 e2 k m d1 d2). Qed.
Print Assumptions C82_same_kind.
Example C82_ex : schema_ok vars1 caps1 /\ (forall v, In v vars1 -> ve_al v <= 16) /\ built vars1 caps1 true eb1 /\ built vars1 caps1 true eb2 /\
  0 < m_len (eb_payload eb1) /\ region emem (eb_mem eb1) false /\ region emem (eb_mem eb2) true /\ ~ overlap (eb_mem eb1) (eb_mem eb2) /\
  kind_check emem host_to_device false true = true /\ length (all_counters vars1 true eb2) = 3%nat.
Proof.
  split; [exact vars1_ok|]. split; [intros v [<-|[<-|[<-|[]]]]; cbn; lia|]. split; [exact eb1_built|]. split; [exact eb2_built|]. split; [reflexivity|].
  split; [apply (emem_host _ _ 4096 196); auto using emem_byte; lia|]. split; [apply (emem_dev _ _ 65536 196); auto using emem_byte; lia|].
  split; [apply (apart_mem _ _ 4096 196 65536 196); auto; lia|]. split; reflexivity.
Qed.

(** Also between fixed size and resizable buffers and for larger alignments, if the
    payloads have the same length. *)
Theorem C82_same_length vars caps rs1 rs2 e1 e2 k m d1 d2 : schema_ok vars caps -> built vars caps rs1 e1 -> built vars caps rs2 e2 ->
  0 < m_len (eb_payload e1) -> m_len (eb_payload e1) = m_len (eb_payload e2) ->
  region m (eb_mem e1) d1 -> region m (eb_mem e2) d2 -> ~ overlap (eb_mem e1) (eb_mem e2) -> kind_check m k d1 d2 = true ->
  exists m', edm_copy vars k (buffer_view e1) (buffer_view e2) m = (Ret tt, m') /\ same_acc m m' /\
    Forall2 (fun b1 b2 => bytes_of m' b2 = bytes_of m b1) (all_payloads vars e1) (all_payloads vars e2) /\
    sizes_copied vars caps rs1 rs2 e1 e2 m m' /\
    changes (fun x => in_block x (mem_block (eb_payload e2)) \/ in_block x (mem_block (eb_size e2))) m m'.
Proof. exact (edm_copy_fast vars caps rs1 rs2 e1 e2 k m d1 d2). Qed.
Print Assumptions C82_same_length.
(** From a buffer of fixed size to a resizable one. *)
Example C82_fixed_ex : built vars1 caps1 false eb1f /\ m_len (eb_payload eb1f) = m_len (eb_payload eb2) /\ region emem (eb_mem eb1f) false /\
  ~ overlap (eb_mem eb1f) (eb_mem eb2).
Proof.
  split; [exact eb1f_built|]. split; [reflexivity|]. split; [apply (emem_host _ _ 4096 160); auto using emem_byte; lia|].
  apply (apart_mem _ _ 4096 160 65536 196); auto; lia.
Qed.

(** ** C83: no target gets a size beyond its capacity *)
(** The code compares the lengths of the payloads only.  Jagged vectors with inner
    capacities 2, 3 and 3, 2 have the same length. *)
Theorem C83_refuted : exists vars capsf capst e1 e2 k m m', schema_ok vars capsf /\ schema_ok vars capst /\
  built vars capsf true e1 /\ built vars capst true e2 /\ region m (eb_mem e1) false /\ region m (eb_mem e2) true /\ ~ overlap (eb_mem e1) (eb_mem e2) /\
  (forall n l h inner, In (EJagged n l h inner) (eb_views e1) -> jagged_sizes m (map cv inner) capsf) /\
  edm_copy vars k (buffer_view e1) (buffer_view e2) m = (Ret tt, m') /\
  exists n l h inner x c, In (EJagged n l h inner) (eb_views e2) /\ In x inner /\ get_bytes m' (Placement.v_size x) 4 = Some (le32 c) /\ Placement.v_cap x < c < 2 ^ 32.
Proof.
  pose (e1 := buf_at [mkVar KJagged 4 4] [2; 3] true 4096). pose (e2 := buf_at [mkVar KJagged 4 4] [3; 2] true 65536).
  pose (m := put_bytes emem 4096 (flat_map le32 [2; 3])).
  exists [mkVar KJagged 4 4], [2; 3], [3; 2], e1, e2, host_to_device, m, (snd (edm_copy [mkVar KJagged 4 4] host_to_device (buffer_view e1) (buffer_view e2) m)).
  assert (A : forall x, m_byte m x <> None) by (apply put_byte, emem_byte).
  split; [schema_tac|]. split; [schema_tac|]. split; [built_tac|]. split; [built_tac|].
  split; [apply (emem_host _ _ 4096 100); auto; lia|]. split; [apply (emem_dev _ _ 65536 100); auto; lia|].
  split; [apply (apart_mem _ _ 4096 100 65536 100); auto; lia|]. split.
  { intros n l h inner I. vm_compute in I. destruct I as [E|[]]. injection E as <- <- <- <-.
    split; [repeat constructor; cbn; lia|]. right. exists 4096. split; [|split; [lia|vm_compute; reflexivity]]. split; [lia|].
    intros [|[|i]] v E; cbn in E; try discriminate; try (injection E as <-; reflexivity). destruct i; discriminate. }
  split; [apply run_fst; vm_compute; reflexivity|].
  exists 2, 65544, 65544, [Placement.mkView 3 65536 65592; Placement.mkView 2 65540 65604], (Placement.mkView 2 65540 65604), 3.
  split; [vm_compute; left; reflexivity|]. split; [right; left; reflexivity|]. split; [vm_compute; reflexivity|cbn; lia].
Qed.
Print Assumptions C83_refuted.
(** Without jagged vectors: the padding before the scalar hides that the vector of the
    target is shorter. *)
Theorem C83_padding_refuted : exists vars capsf capst e1 e2 k m m', schema_ok vars capsf /\ schema_ok vars capst /\
  built vars capsf true e1 /\ built vars capst true e2 /\ region m (eb_mem e1) false /\ region m (eb_mem e2) true /\ ~ overlap (eb_mem e1) (eb_mem e2) /\
  edm_get_size vars (buffer_view e1) m = (Ret 2, m) /\ length capsf = 2%nat /\ length capst = 1%nat /\
  edm_copy vars k (buffer_view e1) (buffer_view e2) m = (Ret tt, m') /\ edm_get_size vars (buffer_view e2) m' = (Ret 2, m') /\ eb_cap e2 = 1.
Proof.
  pose (m := put_bytes emem 4096 (le32 2)).
  exists vars2, [0; 0], [0], eb3, eb4, host_to_device, m, (snd (edm_copy vars2 host_to_device (buffer_view eb3) (buffer_view eb4) m)).
  assert (A : forall x, m_byte m x <> None) by (apply put_byte, emem_byte).
  split; [schema_tac|]. split; [schema_tac|]. split; [built_tac|]. split; [built_tac|].
  split; [apply (emem_host _ _ 4096 54); auto; lia|]. split; [apply (emem_dev _ _ 65536 53); auto; lia|].
  split; [apply (apart_mem _ _ 4096 54 65536 53); auto; lia|].
  split; [apply edm_get_size_fst; vm_compute; reflexivity|]. split; [reflexivity|]. split; [reflexivity|]. split; [apply run_fst; vm_compute; reflexivity|].
  split; [apply edm_get_size_fst; vm_compute; reflexivity|reflexivity].
Qed.
Print Assumptions C83_padding_refuted.

(** ** C84: a copy that throws has written nothing *)
(** The numbers of sizes are compared after the payload has been copied. *)
Theorem C84_refuted : exists vars capsf capst e1 e2 k m m' x, schema_ok vars capsf /\ schema_ok vars capst /\
  built vars capsf true e1 /\ built vars capst true e2 /\ region m (eb_mem e1) false /\ region m (eb_mem e2) true /\ ~ overlap (eb_mem e1) (eb_mem e2) /\
  edm_copy vars k (buffer_view e1) (buffer_view e2) m = (Throw length_error, m') /\ in_block x (mem_block (eb_payload e2)) /\ m_byte m' x <> m_byte m x.
Proof.
  pose (e1 := buf_at [mkVar KJagged 4 4] [1; 1] true 4096). pose (e2 := buf_at [mkVar KJagged 4 4] [2] true 65536).
  exists [mkVar KJagged 4 4], [1; 1], [2], e1, e2, host_to_device, emem, (snd (edm_copy [mkVar KJagged 4 4] host_to_device (buffer_view e1) (buffer_view e2) emem)), 65568.
  split; [schema_tac|]. split; [schema_tac|]. split; [built_tac|]. split; [built_tac|].
  split; [apply (emem_host _ _ 4096 88); auto using emem_byte; lia|]. split; [apply (emem_dev _ _ 65536 60); auto using emem_byte; lia|].
  split; [apply (apart_mem _ _ 4096 88 65536 60); auto; lia|]. split; [apply run_fst; vm_compute; reflexivity|]. split; [vm_compute; split; [discriminate|reflexivity]|]. vm_compute. discriminate.
Qed.
Print Assumptions C84_refuted.

(** ** C85: variable by variable
    A [job] describes the source and the target view of a variable and the contents of the
    source; [job_done m j]: the target has these contents in [m], and also the sizes if it
    is resizable. *)
Theorem C85_views k from to m jobs : one_by_one from to ->
  ev_vars from = map job_from jobs -> ev_vars to = map job_to jobs -> Forall (job_ok k m) jobs -> ForallOrdPairs in_order jobs ->
  exists m', edm_copy (map job_var jobs) k from to m = (Ret tt, m') /\
    changes (fun a => exists j, In j jobs /\ job_writes j a) m m' /\ Forall (job_done m') jobs.
Proof. exact (edm_copy_views k from to m jobs). Qed.
Print Assumptions C85_views.
(** From a host container to a resizable device buffer. *)
Example C85_ex : one_by_one hview (buffer_view eb2) /\ map job_var jobs1 = vars1 /\ ev_vars hview = map job_from jobs1 /\ ev_vars (buffer_view eb2) = map job_to jobs1 /\
  Forall (job_ok host_to_device emem) jobs1 /\ ForallOrdPairs in_order jobs1.
Proof.
  split; [left; reflexivity|]. split; [reflexivity|]. split; [reflexivity|]. split; [reflexivity|]. split; [exact jobs1_ok|exact jobs1_order].
Qed.

(** ** C86: setup *)
(** A resizable container of capacity zero keeps an uninitialised size. *)
Theorem C86_refuted : exists vars e m m' n, schema_ok vars [] /\ built vars [] true e /\ region m (eb_mem e) true /\
  edm_setup (buffer_view e) m = (Ret tt, m') /\ edm_get_size vars (buffer_view e) m' = (Ret n, m') /\ n <> 0.
Proof.
  pose (e := buf_at vars2 [] true 65536). exists vars2, e, emem, emem, (unle32 (bytes_at emem 65536 4)).
  split; [schema_tac|]. split; [built_tac|]. split; [apply (emem_dev _ _ 65536 52); auto using emem_byte; lia|].
  split; [reflexivity|]. split; [apply edm_get_size_fst; vm_compute; reflexivity|vm_compute; discriminate].
Qed.
Print Assumptions C86_refuted.
Theorem C86_setup_partial vars caps e m d : schema_ok vars caps -> built vars caps true e -> caps <> [] -> region m (eb_mem e) d ->
  exists m', edm_setup (buffer_view e) m = (Ret tt, m') /\ changes (fun x => in_block x (mem_block (eb_size e))) m m' /\
    Forall (fun b => bytes_of m' b = Some (le32 0)) (all_counters vars true e) /\
    (existsb is_jagged vars = false -> edm_get_size vars (buffer_view e) m' = (Ret 0, m')).
Proof. exact (edm_setup_thm vars caps e m d). Qed.
Print Assumptions C86_setup_partial.
Theorem C86_fixed vars caps e m : schema_ok vars caps -> built vars caps false e ->
  edm_setup (buffer_view e) m = (Ret tt, m) /\ edm_get_size vars (buffer_view e) m = (Ret (Z.of_nat (length caps)), m).
Proof. exact (edm_setup_fixed vars caps e m). Qed.
Print Assumptions C86_fixed.
Example C86_ex : schema_ok vars2 [0; 0] /\ built vars2 [0; 0] true eb3 /\ region emem (eb_mem eb3) false /\ existsb is_jagged vars2 = false /\
  edm_get_size vars2 (buffer_view eb3) emem <> (Ret 0, emem) /\ built vars1 caps1 false eb1f.
Proof.
  split; [schema_tac|]. split; [built_tac|]. split; [apply (emem_host _ _ 4096 54); auto using emem_byte; lia|]. split; [reflexivity|]. split; [vm_compute; discriminate|exact eb1f_built].
Qed.

(** ** C87: memset *)
(** No payload at all and a jagged vector: the assert of is_contiguous fails. *)
Theorem C87_refuted : exists vars e m, schema_ok vars [] /\ built vars [] false e /\ region m (eb_mem e) true /\
  edm_memset vars (buffer_view e) 0 m = (UB, m).
Proof.
  pose (e := buf_at [mkVar KJagged 4 4] [] false 65536). exists [mkVar KJagged 4 4], e, emem.
  split; [schema_tac|]. split; [built_tac|]. split; [apply (emem_dev _ _ 65536 16); auto using emem_byte; lia|reflexivity].
Qed.
Print Assumptions C87_refuted.
Theorem C87_memset_partial vars caps rs e m d value : schema_ok vars caps -> built vars caps rs e -> 0 < m_len (eb_payload e) -> region m (eb_mem e) d ->
  exists m', edm_memset vars (buffer_view e) value m = (Ret tt, m') /\ changes (fun x => in_block x (mem_block (eb_payload e))) m m' /\
    forall b x, In b (all_payloads vars e) -> in_block x b -> m_byte m' x = Some (value mod 256).
Proof. exact (edm_memset_thm vars caps rs e m d value). Qed.
Print Assumptions C87_memset_partial.
Example C87_ex : built vars1 caps1 true eb2 /\ 0 < m_len (eb_payload eb2) /\ region emem (eb_mem eb2) true.
Proof. split; [exact eb2_built|]. split; [reflexivity|]. apply (emem_dev _ _ 65536 196); auto using emem_byte; lia. Qed.
