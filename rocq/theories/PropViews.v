(** Properties C126 to C128: views and get_data. *)
From Verif Require Import Base Copy CopyHost UniquePtr Views CopyProofs ViewsProofs.

(** C126 does not hold: the view of a vector of 2^32 or more elements is too short. *)
Theorem C126_refuted : exists n p, 0 <= n < 2 ^ 63 /\ 0 < p < 2 ^ 64 /\
  forall m, dv_size (vector_data (n, p)) m = Ret 1 /\ n <> 1.
Proof. exists (2 ^ 32 + 1), 4096. split; [lia|]. split; [lia|]. intros m. split; [reflexivity|lia]. Qed.
Print Assumptions C126_refuted.

(** Up to 2^32 elements: the view of a vector, ... *)
Theorem C126_vector_partial : forall sz n p j m, 0 <= n < 2 ^ 32 -> 0 <= j ->
  dv_size (vector_data (n, p)) m = Ret n /\
  (j < n -> dv_at sz (vector_data (n, p)) j m = Ret (p + j * sz)) /\ (n <= j -> dv_at sz (vector_data (n, p)) j m = UB).
Proof. exact vector_data_at. Qed.
Print Assumptions C126_vector_partial.

(** ... and that of a vector of vectors: element [j] of inner vector [i] is found through
    the description written to memory, by this and by every later memory that agrees on
    that description. *)
Theorem C126_jagged_partial : forall sz vecs p m i n q j, 24 * Z.of_nat (length vecs) < 2 ^ 64 -> p <> 0 ->
  acc m p (24 * Z.of_nat (length vecs)) -> nth_error vecs i = Some (n, q) -> 0 <= n < 2 ^ 32 -> 0 <= q < 2 ^ 64 -> 0 <= j ->
  exists v u l m', jagged_get_data vecs (Some p) m = (Ret (v, u), l, m') /\ j_size v = Z.of_nat (length vecs) /\
    (forall x, ~ within p (24 * Z.of_nat (length vecs)) x -> m_byte m' x = m_byte m x) /\
    forall m2, (forall x, within p (24 * Z.of_nat (length vecs)) x -> m_byte m2 x = m_byte m' x) ->
      exists y, jdv_at v (Z.of_nat i) m2 = Ret y /\ dv_size y m2 = Ret n /\
        (j < n -> dv_at sz y j m2 = Ret (q + j * sz)) /\ (n <= j -> dv_at sz y j m2 = UB).
Proof.
  intros sz vecs p m i n q j Hl Hp Ha Hi Hn Hq Hj.
  assert (Hne : vecs <> []) by (intros ->; destruct i; discriminate).
  destruct (jagged_get_data_thm vecs p m Hne Hl Hp Ha) as (v & u & m' & E & Hv & C & _ & N).
  exists v, u. do 2 eexists. split; [exact E|]. split; [rewrite Hv; reflexivity|]. split; [apply C|].
  intros m2 Hm2. exists (vector_data (n, q)). split; [|apply vector_data_at; auto].
  assert (Hil : (i < length vecs)%nat) by (apply nth_error_Some; congruence).
  change (jdv_at v (Z.of_nat i) m2 = Ret (mkV (n mod 2 ^ 32) 0 q)). rewrite <- (N i n q Hi Hq), Hv. unfold jdv_at. cbn [j_size j_ptr].
  rewrite (get_bytes_ext 24 m' m2 (p + Z.of_nat i * 24) (p + Z.of_nat i * 24)); [reflexivity|].
  intros k Hk. apply Hm2. unfold within. lia.
Qed.
Print Assumptions C126_jagged_partial.

Definition mem126 : cmem := mkM (fun x => if (4096 <=? x) && (x <? 4096 + 72) then Some 170 else None) (fun _ => false) false.
Definition vecs126 : list (Z * Z) := [(3, 8192); (0, 0); (2, 16384)].
Example C126_ex : exists v u l m', jagged_get_data vecs126 (Some 4096) mem126 = (Ret (v, u), l, m') /\
  acc mem126 4096 (24 * Z.of_nat (length vecs126)) /\
  jdv_at v 2 m' = Ret (mkV 2 0 16384) /\ dv_at 8 (mkV 2 0 16384) 1 m' = Ret 16392 /\ jdv_at v 3 m' = UB.
Proof.
  do 4 eexists. split; [reflexivity|]. split.
  - intros x Hx. change (24 * Z.of_nat (length vecs126)) with 72 in Hx. cbn [mem126 m_byte].
    replace ((4096 <=? x) && (x <? 4096 + 72)) with true by lia. discriminate.
  - split; [vm_compute; reflexivity|]. split; [vm_compute; reflexivity|vm_compute; reflexivity].
Qed.

(** C127: the memory of jagged_vector_data is obtained once, and given back with the same
    arguments; nothing is obtained for an empty vector; a failure is passed on without
    any other effect. *)
Theorem C127_owned : forall vecs p m, vecs <> [] -> 24 * Z.of_nat (length vecs) < 2 ^ 64 -> p <> 0 ->
  acc m p (24 * Z.of_nat (length vecs)) ->
  exists v u m', jagged_get_data vecs (Some p) m = (Ret (v, u), [EAlloc (24 * Z.of_nat (length vecs)) 16 (Some p)], m') /\
    v = mkJ (Z.of_nat (length vecs)) p p /\ changes (within p (24 * Z.of_nat (length vecs))) m m' /\
    jdata_destroy (v, u) = [EFree p (24 * Z.of_nat (length vecs)) 16].
Proof.
  intros vecs p m H1 H2 H3 H4. destruct (jagged_get_data_thm vecs p m H1 H2 H3 H4) as (v & u & m' & A & B & C & D & _).
  exists v, u, m'. auto.
Qed.
Print Assumptions C127_owned.
Theorem C127_empty : forall res m, exists u, jagged_get_data [] res m = (Ret (mkJ 0 0 0, u), [], m) /\ jdata_destroy (mkJ 0 0 0, u) = [].
Proof. intros. exists u_null. apply jagged_get_data_empty. Qed.
Print Assumptions C127_empty.
Theorem C127_fails : forall vecs m, vecs <> [] -> 24 * Z.of_nat (length vecs) < 2 ^ 64 ->
  jagged_get_data vecs None m = (Throw bad_alloc, [EAlloc (24 * Z.of_nat (length vecs)) 16 None], m).
Proof. exact jagged_get_data_fail. Qed.
Print Assumptions C127_fails.
Example C127_ex : exists v u m', jagged_get_data vecs126 (Some 4096) mem126 = (Ret (v, u), [EAlloc 72 16 (Some 4096)], m') /\
  jdata_destroy (v, u) = [EFree 4096 72 16].
Proof. do 3 eexists. split; reflexivity. Qed.

(** C128: comparison is equality of what the views refer to; converting and assigning
    make equal views, through which the same elements are read. *)
Theorem C128_views : forall v w,
  (view_eq v w = true <-> v_cap v = v_cap w /\ v_sizep v = v_sizep w /\ v_ptr v = v_ptr w) /\
  view_ne v w = negb (view_eq v w) /\
  view_eq (view_convert v) v = true /\ view_eq (view_assign w v) v = true /\
  (view_eq v w = true -> forall sz j m, dv_size v m = dv_size w m /\ dv_at sz v j m = dv_at sz w j m).
Proof.
  intros v w. split.
  { rewrite view_eq_iff. split; [intros ->; auto|]. destruct v, w; cbn; intros (-> & -> & ->); reflexivity. }
  split; [reflexivity|]. split; [apply view_eq_iff; destruct v; reflexivity|]. split; [apply view_eq_iff; destruct v; reflexivity|].
  intros H sz j m. apply view_eq_iff in H. subst. auto.
Qed.
Print Assumptions C128_views.
(** The size is the 32-bit number that the size pointer points to or, without one, the
    capacity; the elements below it, and no others, can be accessed. *)
Theorem C128_size : forall sz v n m, 0 <= n < 2 ^ 32 ->
  (v_sizep v <> 0 -> get_bytes m (v_sizep v) 4 = Some [n mod 256; n / 2 ^ 8 mod 256; n / 2 ^ 16 mod 256; n / 2 ^ 24 mod 256]) ->
  (v_sizep v = 0 -> n = v_cap v) ->
  dv_size v m = Ret n /\ forall j, dv_at sz v j m = if j <? n then Ret (v_ptr v + j * sz) else UB.
Proof.
  intros sz v n m Hn H1 H2.
  assert (E : dv_size v m = Ret n).
  { unfold dv_size. destruct (Z.eqb_spec (v_sizep v) 0) as [E0|E0]; [rewrite (H2 E0); reflexivity|].
    rewrite (H1 E0). f_equal. exact (unle32_le32 n Hn). }
  split; [exact E|]. intros j. unfold dv_at. rewrite E. cbn [bind]. unfold assert. destruct (j <? n); reflexivity.
Qed.
Print Assumptions C128_size.
Example C128_size_ex : get_bytes (mkM (fun x => nth_error [44; 1; 0; 0] (Z.to_nat (x - 16))) (fun _ => false) false) 16 4 = Some [300 mod 256; 300 / 2 ^ 8 mod 256; 300 / 2 ^ 16 mod 256; 300 / 2 ^ 24 mod 256] /\
  dv_at 4 (view_resizable 1000 16 64) 299 (mkM (fun x => nth_error [44; 1; 0; 0] (Z.to_nat (x - 16))) (fun _ => false) false) = Ret (64 + 299 * 4).
Proof. split; vm_compute; reflexivity. Qed.
Theorem C128_jagged : forall v w size ptr host,
  (jview_eq v w = true <-> j_size v = j_size w /\ j_ptr v = j_ptr w /\ j_host v = j_host w) /\
  jview_ne v w = negb (jview_eq v w) /\
  jview_eq (jview_convert v) v = true /\ jview_eq (jview_assign w v) v = true /\
  (jview_eq v w = true -> forall i m, jdv_at v i m = jdv_at w i m) /\
  j_size (jview_make size ptr host) = size /\ j_ptr (jview_make size ptr host) = ptr /\
  (host <> 0 -> j_host (jview_make size ptr host) = host) /\ j_host (jview_make size ptr 0) = ptr.
Proof.
  intros v w size ptr host. split.
  { rewrite jview_eq_iff. split; [intros ->; auto|]. destruct v, w; cbn; intros (-> & -> & ->); reflexivity. }
  split; [reflexivity|]. split; [apply jview_eq_iff; destruct v; reflexivity|]. split; [apply jview_eq_iff; destruct v; reflexivity|].
  split; [intros H i m; apply jview_eq_iff in H; subst; auto|]. repeat split.
  intro H. unfold jview_make. cbn [j_host]. destruct (host =? 0) eqn:E; [lia|reflexivity].
Qed.
Print Assumptions C128_jagged.
Example C128_ex : view_eq (view_fixed 3 64) (view_resizable 3 16 64) = false /\ view_eq (view_convert (view_fixed 3 64)) (view_fixed 3 64) = true /\
  jview_eq (jview_make 2 64 0) (jview_make 2 64 64) = true /\ jview_ne (jview_make 2 64 128) (jview_make 2 64 0) = true.
Proof. repeat split. Qed.
