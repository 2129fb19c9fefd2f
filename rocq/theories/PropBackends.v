(** Properties C131-C133: the implementations of do_copy and do_memset, and CUDA events. *)
From Verif Require Import Base BaseLemmas Copy CopyProofs Backends BackendsProofs CopyExamples.

(** C131. *)
Theorem C131_copy_partial k n src dst m : 0 < n -> src <> 0 -> dst <> 0 -> acc m src n -> acc m dst n -> apart src n dst n ->
  exists m', changes (within dst n) m m' /\ same_acc m m' /\ (forall i, 0 <= i < n -> m_byte m' (dst + i) = m_byte m (src + i)) /\
    (side_ok k (m_dev m src) (m_dev m dst) -> cuda_copy true (cp_code k) n src dst m = (Ret tt, m')) /\
    (~ side_ok k (m_dev m src) (m_dev m dst) -> cuda_copy true (cp_code k) n src dst m = (Throw runtime_error, m)) /\
    cuda_copy false (cp_code k) n src dst m = (Throw runtime_error, m) /\
    sycl_copy true n src dst m = (Ret tt, m') /\ sycl_copy false n src dst m = (Throw runtime_error, m) /\
    posix_copy n src dst m = (Ret tt, m').
Proof. exact (cuda_copy_run k n src dst m). Qed.
Print Assumptions C131_copy_partial.

Theorem C131_memset_partial native n dst value m : 0 < n < 2 ^ 63 - 8 -> dst <> 0 -> acc m dst n ->
  exists m', changes (within dst n) m m' /\ same_acc m m' /\ (forall x, within dst n x -> m_byte m' x = Some (value mod 256)) /\
    cuda_memset true n dst value m = (Ret tt, m') /\ cuda_memset false n dst value m = (Throw runtime_error, m) /\
    sycl_memset native true n dst value m = (Ret tt, m') /\ sycl_memset native false n dst value m = (Throw runtime_error, m) /\
    posix_memset n dst value m = (Ret tt, m').
Proof. exact (memset_run native n dst value m). Qed.
Print Assumptions C131_memset_partial.

Theorem C131_empty_partial ok native cp src dst value m :
  cuda_copy ok cp 0 src dst m = (Ret tt, m) /\ sycl_copy ok 0 src dst m = (Ret tt, m) /\
  cuda_memset ok 0 dst value m = (Ret tt, m) /\ sycl_memset native ok 0 dst value m = (Ret tt, m).
Proof. exact (empty_copies ok native cp src dst value m). Qed.
Print Assumptions C131_empty_partial.

(** The model of do_copy and do_memset that the theorems on copies use. *)
Theorem C131_model_partial k n src dst value m :
  (m_strict m = true -> cuda_copy true (cp_code k) n src dst m = do_copy k n src dst m) /\
  (m_strict m = false -> sycl_copy true n src dst m = do_copy k n src dst m) /\
  (m_strict m = false -> src <> 0 -> dst <> 0 -> posix_copy n src dst m = do_copy k n src dst m) /\
  cuda_memset true n dst value m = do_memset n dst value m /\
  (forall native, 0 <= n < 2 ^ 63 - 8 -> sycl_memset native true n dst value m = do_memset n dst value m) /\
  (dst <> 0 -> posix_memset n dst value m = do_memset n dst value m).
Proof.
  split; [apply cuda_copy_eq|]. split; [intros H; rewrite (do_copy_loose k type_unknown) by exact H; apply sycl_copy_eq|].
  split; [intros H H1 H2; rewrite (do_copy_loose k type_unknown) by exact H; apply posix_copy_eq; assumption|].
  split; [apply cuda_memset_eq|]. split; [intros native H; apply sycl_memset_eq; exact H|apply posix_memset_eq].
Qed.
Print Assumptions C131_model_partial.

(** Two inner vectors with one element, an empty one without memory in between: memset of
    the vectors calls ::memset with a null pointer. *)
Theorem C131_refuted : exists m l, m_byte m = m_byte exm /\ l = [mkV 1 0 64; mkV 0 0 0; mkV 1 0 72] /\
  acc m 64 4 /\ acc m 72 4 /\ is_contiguous 4 l = Ret false /\
  posix_memset 0 0 7 m = (UB, m) /\ posix_copy 0 0 64 m = (UB, m) /\ posix_copy 0 64 0 m = (UB, m) /\ fst (posix_memset_each 4 l 7 m) = UB.
Proof.
  exists exm, [mkV 1 0 64; mkV 0 0 0; mkV 1 0 72]. split; [reflexivity|]. split; [reflexivity|].
  split; [apply exm_acc; lia|]. split; [apply exm_acc; lia|]. split; [reflexivity|]. split; [reflexivity|]. split; [reflexivity|]. split; [reflexivity|vm_compute; reflexivity].
Qed.
Print Assumptions C131_refuted.

Example C131_ex : acc exm 64 8 /\ acc exm 400 8 /\ apart 64 8 400 8 /\ side_ok host_to_device (m_dev exm 64) (m_dev exm 400) /\
  ~ side_ok device_to_host (m_dev exm 64) (m_dev exm 400) /\
  get_bytes (snd (cuda_copy true (cp_code host_to_device) 8 64 400 exm)) 400 8 = Some ex_data1 /\
  get_bytes (snd (sycl_memset false true 5 400 (-1) exm)) 400 6 = Some [255; 255; 255; 255; 255; 149].
Proof.
  split; [apply exm_acc; lia|]. split; [apply exm_acc; lia|]. split; [intros x Hx; lia|]. split; [split; reflexivity|].
  split; [intros [H _]; discriminate H|]. split; vm_compute; reflexivity.
Qed.

(** C132: the life of an event: create_event, any calls of wait and ignore whose exceptions
    are caught, and the destructor.  The log has the newest call first. *)
Theorem C132_no_errors fail h us d : (forall i, e_orc d i = true) ->
  exists d', o_life fail h us d = (if match us with [] => fail | _ => false end then RTerminate else ROk (map (fun _ => false) us), d') /\
    e_log d' = (EDestroy h, true) :: (if match us with UIgnore :: _ => false | _ => true end then [(ESync h, true)] else []) ++
               (ERecord h, true) :: (ECreate h, true) :: e_log d.
Proof. exact (o_life_ok fail h us d). Qed.
Print Assumptions C132_no_errors.

(** With any errors of the runtime: unless the program is ended, the event is destroyed
    once, successfully, after all other calls on it. *)
Theorem C132_errors fail h us d r d' : o_life fail h us d = (r, d') ->
  let tidy l := exists l1, l = (EDestroy h, true) :: l1 /\ Forall (fun '(c, ok) => c = ESync h \/ c = EDestroy h /\ ok = false) l1 in
  match r with
  | ROk l => length l = length us /\ exists l1, tidy l1 /\ e_log d' = l1 ++ (ERecord h, true) :: (ECreate h, true) :: e_log d
  | RThrow => e_log d' = (ECreate h, false) :: e_log d \/ exists l1, tidy l1 /\ e_log d' = l1 ++ (ERecord h, false) :: (ECreate h, true) :: e_log d
  | RTerminate => True
  end.
Proof. exact (o_life_any fail h us d r d'). Qed.
Print Assumptions C132_errors.

Example C132_ex : let d := mkED [] (fun i => negb (Nat.eqb i 2)) in
  o_life false 7 [UWait; UWait; UIgnore] d =
  (ROk [true; false; false], mkED [(EDestroy 7, true); (ESync 7, true); (ESync 7, false); (ERecord 7, true); (ECreate 7, true)] (e_orc d)).
Proof. reflexivity. Qed.

(** C133: errors that persist, as those after a fault in a kernel do, end the program: from
    the first wait on, or from cudaEventRecord on. *)
Theorem C133_refuted fail h us d n : (n = 2 \/ n = 1)%nat ->
  (forall i, (length (e_log d) + n <= i)%nat -> e_orc d i = false) -> (forall i, (i < length (e_log d) + n)%nat -> e_orc d i = true) ->
  fst (o_life fail h us d) = RTerminate.
Proof. exact (o_sticky fail h us d n). Qed.
Print Assumptions C133_refuted.

(** A single error does not, if wait or ignore is called. *)
Theorem C133_once_partial p h us d : (forall i, i <> p -> e_orc d i = true) -> us <> [] -> fst (o_life false h us d) <> RTerminate.
Proof. exact (life_once p h us d). Qed.
Print Assumptions C133_once_partial.

Example C133_ex : let d := mkED [] (fun i => Nat.ltb i 2) in
  o_use [UWait] (Some 7%nat) (mkED [(ERecord 7, true); (ECreate 7, true)] (e_orc d)) =
    ([true], Some 7%nat, mkED [(ESync 7, false); (ERecord 7, true); (ECreate 7, true)] (e_orc d)) /\
  fst (o_life false 7 [UWait] d) = RTerminate.
Proof. split; reflexivity. Qed.
