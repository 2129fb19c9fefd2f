(** Properties of copies between vectors and jagged vectors: C42 to C46, C78 to C81. *)
From Verif Require Import Base BaseLemmas Copy CopyProofs CopyJaggedProofs CopyJaggedTheorems CopyExamples.

(** ** C42: vector copies *)
(** Copying an empty vector leaves a resizable target with its old size. *)
Theorem C42_refuted : exists sz k from to m m', view_size m from 0 /\ v_sizep to <> 0 /\ 0 < v_cap to /\
  copy_vector sz k from to m = (Ret false, m') /\ ~ view_size m' to 0.
Proof.
  exists 4, host_to_device, (mkV 0 0 0), (mkV 5 256 400), exm, exm.
  split; [split; [cbn; lia|]; split; [cbn; lia|reflexivity]|]. split; [cbn; lia|]. split; [cbn; lia|]. split; [reflexivity|].
  intros (_ & _ & H). vm_compute in H. discriminate H.
Qed.
Print Assumptions C42_refuted.

Theorem C42_copy_partial sz k from to m n data : 0 < sz -> view_size m from n -> 0 < n <= v_cap to -> v_cap to < 2 ^ 32 ->
  v_ptr from <> 0 -> v_ptr to <> 0 ->
  get_bytes m (v_ptr from) (Z.to_nat (n * sz)) = Some data -> acc m (v_ptr to) (n * sz) ->
  apart (v_ptr from) (n * sz) (v_ptr to) (n * sz) ->
  kind_check m k (m_dev m (v_ptr from)) (m_dev m (v_ptr to)) = true ->
  (v_sizep to <> 0 -> acc m (v_sizep to) 4 /\ m_dev m (v_sizep to) = m_dev m (v_ptr to) /\
     apart (v_sizep to) 4 (v_ptr from) (n * sz) /\ apart (v_sizep to) 4 (v_ptr to) (n * sz)) ->
  exists m', copy_vector sz k from to m = (Ret true, m') /\
    get_bytes m' (v_ptr to) (Z.to_nat (n * sz)) = Some data /\
    (v_sizep to <> 0 -> view_size m' to n) /\
    changes (fun x => within (v_ptr to) (n * sz) x \/ (v_sizep to <> 0 /\ within (v_sizep to) 4 x)) m m'.
Proof. exact (copy_vector_thm sz k from to m n data). Qed.
Print Assumptions C42_copy_partial.
Example C42_copy_ex :
  let from := mkV 5 128 64 in let to := mkV 6 256 400 in let n := 2 in let m := exm in
  view_size m from n /\ get_bytes m (v_ptr from) (Z.to_nat (n * 4)) = Some ex_data1 /\ acc m (v_ptr to) (n * 4) /\
  apart (v_ptr from) (n * 4) (v_ptr to) (n * 4) /\ kind_check m host_to_device (m_dev m (v_ptr from)) (m_dev m (v_ptr to)) = true /\
  acc m (v_sizep to) 4 /\ m_dev m (v_sizep to) = m_dev m (v_ptr to) /\
  apart (v_sizep to) 4 (v_ptr from) (n * 4) /\ apart (v_sizep to) 4 (v_ptr to) (n * 4) /\ view_size m to 3.
Proof.
  cbn [v_ptr v_sizep]. split; [split; [cbn; lia|]; split; [cbn; lia|reflexivity]|]. split; [vm_compute; reflexivity|]. split; [apply exm_acc; lia|].
  split; [intros x Hx; lia|]. split; [reflexivity|]. split; [apply exm_acc; lia|]. split; [reflexivity|].
  split; [intros x Hx; lia|]. split; [intros x Hx; lia|]. split; [cbn; lia|]. split; [cbn; lia|vm_compute; reflexivity].
Qed.

Theorem C42_too_large sz k from to m n : view_size m from n -> v_cap to < n -> 0 <= v_cap to ->
  copy_vector sz k from to m = (Throw length_error, m).
Proof. exact (copy_vector_too_large sz k from to m n). Qed.
Print Assumptions C42_too_large.
Example C42_too_large_ex : view_size exm (mkV 5 128 64) 2 /\ v_cap (mkV 1 256 400) < 2.
Proof. split; [split; [cbn; lia|]; split; [cbn; lia|reflexivity]|cbn; lia]. Qed.

(** ** C43: round trip *)
Theorem C43_round_trip sz k1 k2 v m data p q : 0 < sz -> v_sizep v = 0 -> 0 <= v_cap v < 2 ^ 32 ->
  let n := v_cap v * sz in
  get_bytes m (v_ptr v) (Z.to_nat n) = Some data -> (0 < n -> v_ptr v <> 0 /\ p <> 0 /\ q <> 0) ->
  acc m p n -> acc m q n -> apart (v_ptr v) n p n -> apart p n q n ->
  kind_check m k1 (m_dev m (v_ptr v)) (m_dev m p) = true -> kind_check m k2 (m_dev m p) (m_dev m q) = true ->
  exists b m1 m2, to_buffer sz k1 v p m = (Ret b, m1) /\ v_cap b = v_cap v /\ v_sizep b = 0 /\ v_ptr b = p /\
    copy_to_vec sz k2 b q m1 = (Ret (v_cap v), m2) /\ get_bytes m2 q (Z.to_nat n) = Some data /\
    changes (fun x => within p n x \/ within q n x) m m2.
Proof. exact (round_trip_thm sz k1 k2 v m data p q). Qed.
Print Assumptions C43_round_trip.
Example C43_ex : let v := mkV 2 0 64 in let n := v_cap v * 4 in
  get_bytes exm (v_ptr v) (Z.to_nat n) = Some ex_data1 /\ acc exm 400 n /\ acc exm 160 n /\ apart (v_ptr v) n 400 n /\ apart 400 n 160 n /\
  kind_check exm host_to_device (m_dev exm (v_ptr v)) (m_dev exm 400) = true /\ kind_check exm device_to_host (m_dev exm 400) (m_dev exm 160) = true.
Proof.
  cbn [v_ptr v_cap]. split; [vm_compute; reflexivity|]. split; [apply exm_acc; lia|]. split; [apply exm_acc; lia|].
  split; [intros x Hx; lia|]. split; [intros x Hx; lia|]. split; reflexivity.
Qed.

(** ** C44: jagged copies *)
Theorem C44_jagged sz k rows m : 0 < sz -> rows <> [] -> Forall (row_ok sz k m) rows -> rows_apart sz rows ->
  jagged_sizes m (map r_from rows) (map r_n rows) -> target_sizes sz m rows ->
  exists m', copy_jagged sz k (map r_from rows) (map r_to rows) m = (Ret true, m') /\
    (forall r, In r rows -> get_bytes m' (v_ptr (r_to r)) (Z.to_nat (r_n r * sz)) = Some (r_data r)) /\
    (fixed_sizes (map r_to rows) \/ jagged_sizes m' (map r_to rows) (map r_n rows)) /\
    changes (fun x => (exists r, In r rows /\ payload sz (r_to r) x) \/ sizes_range (map r_to rows) x) m m'.
Proof. exact (fun H => copy_jagged_thm sz H k rows m). Qed.
Print Assumptions C44_jagged.
(** Both code paths. *)
Example C44_ex : forall to, to = ex_to \/ to = ex_to' ->
  map r_from (ex_rows to) = ex_from /\ map r_to (ex_rows to) = to /\ Forall (row_ok 4 host_to_device exm) (ex_rows to) /\ rows_apart 4 (ex_rows to) /\
  jagged_sizes exm (map r_from (ex_rows to)) (map r_n (ex_rows to)) /\ target_sizes 4 exm (ex_rows to).
Proof.
  intros to [E|E]; subst to; (split; [reflexivity|]; split; [reflexivity|]; split; [apply ex_rows_ok|]; split; [apply ex_rows_apart|]; split; [exact ex_sizes|apply ex_targets]).
Qed.
Example C44_paths_ex : is_contiguous 4 ex_from = Ret true /\ is_contiguous 4 ex_to = Ret true /\ is_contiguous 4 ex_to' = Ret false.
Proof. repeat split. Qed.

(** The single-copy path is chosen exactly for inner vectors that follow each other. *)
Theorem C44_contiguity sz l : l <> [] ->
  exists c, is_contiguous sz l = Ret c /\
    (c = true <-> forall i v w, nth_error l i = Some v -> nth_error l (S i) = Some w -> v_ptr v + v_cap v * sz = v_ptr w).
Proof. exact (is_contiguous_spec sz l). Qed.
Print Assumptions C44_contiguity.

Theorem C44_outer_sizes sz k from to m s : from <> [] -> length from <> length to -> jagged_sizes m from s ->
  copy_jagged sz k from to m = (Throw length_error, m).
Proof. exact (copy_jagged_sizes sz k from to m s). Qed.
Print Assumptions C44_outer_sizes.
Example C44_outer_sizes_ex : jagged_sizes exm ex_from [2; 0; 1] /\ length ex_from <> length (ex_to ++ ex_to).
Proof. split; [exact ex_sizes|discriminate]. Qed.

(** ** C45: set_sizes and get_sizes *)
Theorem C45_inverse s l m p : Forall2 (fun v n => 0 <= n <= v_cap v /\ v_cap v < 2 ^ 32) l s -> sizes_at p l -> 0 < p ->
  acc m p (4 * Z.of_nat (length l)) ->
  exists m', set_sizes s l m = (Ret tt, m') /\ get_sizes l m' = (Ret s, m') /\ changes (within p (4 * Z.of_nat (length l))) m m'.
Proof.
  exact (fun F H P A => match set_sizes_resizable s l m p F H P A with
    | ex_intro _ m' (conj G (conj J (conj _ (conj C _)))) => ex_intro _ m' (conj G (conj (get_sizes_ok m' l s J) C)) end).
Qed.
Print Assumptions C45_inverse.
Example C45_inverse_ex : Forall2 (fun v n => 0 <= n <= v_cap v /\ v_cap v < 2 ^ 32) ex_to [1; 0; 1] /\ sizes_at 300 ex_to /\ acc exm 300 (4 * Z.of_nat (length ex_to)).
Proof. split; [repeat constructor; cbn; lia|]. split; [exact ex_sizes_at|apply exm_acc; cbn; lia]. Qed.

Theorem C45_length s l m : length s <> length l -> set_sizes s l m = (Throw length_error, m).
Proof. exact (set_sizes_length s l m). Qed.
Print Assumptions C45_length.
Theorem C45_capacity s l m : length s = length l -> Exists (fun p => v_cap (fst p) < snd p) (combine l s) ->
  (fixed_sizes l \/ Forall (fun v => v_sizep v <> 0) l) -> set_sizes s l m = (Throw length_error, m).
Proof. exact (set_sizes_capacity' s l m). Qed.
Print Assumptions C45_capacity.
Example C45_capacity_ex : Exists (fun p => v_cap (fst p) < snd p) (combine ex_to [2; 1; 1]) /\ Forall (fun v => v_sizep v <> 0) ex_to.
Proof. split; [right; left; cbn; lia|repeat constructor; cbn; lia]. Qed.

(** ** C46: memset *)
(** An empty jagged view runs into the assert of is_contiguous. *)
Theorem C46_refuted : exists sz value m, memset_jagged sz [] value m = (UB, m).
Proof. exists 4, 1, exm. exact (memset_jagged_empty 4 1 exm). Qed.
Print Assumptions C46_refuted.

Theorem C46_vector sz v value m : 0 < sz -> 0 <= v_cap v -> (0 < v_cap v -> v_ptr v <> 0) -> acc m (v_ptr v) (v_cap v * sz) ->
  exists m', memset_vector sz v value m = (Ret tt, m') /\ changes (within (v_ptr v) (v_cap v * sz)) m m' /\
    forall x, within (v_ptr v) (v_cap v * sz) x -> m_byte m' x = Some (value mod 256).
Proof. exact (memset_vector_thm sz v value m). Qed.
Print Assumptions C46_vector.
Example C46_vector_ex : acc exm (v_ptr (mkV 5 256 400)) (v_cap (mkV 5 256 400) * 4).
Proof. apply exm_acc; cbn; lia. Qed.

Theorem C46_jagged_partial sz value l m : 0 < sz -> l <> [] -> Forall (view_ok sz m) l ->
  exists m', memset_jagged sz l value m = (Ret tt, m') /\ changes (fun x => exists v, In v l /\ payload sz v x) m m' /\
    forall v x, In v l -> payload sz v x -> m_byte m' x = Some (value mod 256).
Proof. exact (fun H => memset_jagged_thm sz H value l m). Qed.
Print Assumptions C46_jagged_partial.
Example C46_jagged_ex : Forall (view_ok 4 exm) ex_to /\ Forall (view_ok 4 exm) ex_to'.
Proof. split; (repeat apply Forall_cons; [..|apply Forall_nil]); unfold view_ok; cbn [v_cap v_ptr v_sizep]; (split; [lia|]; split; [lia|]); first [apply exm_acc; lia|intros x Hx; lia]. Qed.

(** ** C78: targets of a larger fixed size *)
(** The copy succeeds, although the target still has all of its elements. *)
Theorem C78_refuted : exists sz k from to m m', view_size m from 2 /\ view_size m to 5 /\ v_sizep to = 0 /\
  copy_vector sz k from to m = (Ret true, m') /\ view_size m' to 5 /\
  m_byte m' (v_ptr to + 2 * sz) = m_byte m (v_ptr to + 2 * sz).
Proof.
  exists 4, host_to_device, (mkV 2 0 64), (mkV 5 0 400), exm, (snd (copy_vector 4 host_to_device (mkV 2 0 64) (mkV 5 0 400) exm)).
  repeat split; try (cbn; lia); vm_compute; reflexivity.
Qed.
Print Assumptions C78_refuted.

(** ** C79: inconsistent jagged targets *)
(** A resizable inner vector before a fixed one: nothing is set, and nothing reported. *)
Theorem C79_refuted : exists s l m, length s = length l /\ Forall2 (fun v n => 0 <= n <= v_cap v) l s /\
  (exists v w, In v l /\ In w l /\ v_sizep v <> 0 /\ v_sizep w = 0) /\ set_sizes s l m = (Ret tt, m).
Proof.
  exists [1; 1], [mkV 2 300 400; mkV 1 0 408], exm. split; [reflexivity|]. split; [repeat constructor; cbn; lia|].
  split; [|reflexivity]. exists (mkV 2 300 400), (mkV 1 0 408). cbn. repeat split; auto; lia.
Qed.
Print Assumptions C79_refuted.
Theorem C79_fixed_first_partial s l m i j v w : length s = length l -> nth_error l i = Some v -> nth_error l j = Some w -> (i < j)%nat ->
  v_sizep v = 0 -> v_sizep w <> 0 -> exists e, set_sizes s l m = (Throw e, m).
Proof. exact (set_sizes_inconsistent s l m i j v w). Qed.
Print Assumptions C79_fixed_first_partial.
Example C79_ex : let l := [mkV 2 0 400; mkV 1 300 408] in nth_error l 0 = Some (mkV 2 0 400) /\ nth_error l 1 = Some (mkV 1 300 408).
Proof. split; reflexivity. Qed.

(** ** C80: the copy type of the size variable *)
Theorem C80_kind k sd td : kind_ok k sd td = true -> kind_ok (size_cptype k) false td = true.
Proof. exact (size_kind (mkM (fun _ => None) (fun _ => false) true) k sd td). Qed.
Print Assumptions C80_kind.
Example C80_ex : kind_ok device_to_device true true = true.
Proof. reflexivity. Qed.

(** ** C81: setup *)
Theorem C81_vector v m : 0 <= v_cap v < 2 ^ 32 -> (v_sizep v <> 0 -> acc m (v_sizep v) 4) ->
  exists m', setup_vector v m = (Ret tt, m') /\ changes (fun x => v_sizep v <> 0 /\ within (v_sizep v) 4 x) m m' /\
    (v_sizep v <> 0 -> 0 < v_cap v -> view_size m' v 0) /\ (v_sizep v = 0 -> m' = m).
Proof. exact (setup_vector_thm v m). Qed.
Print Assumptions C81_vector.
Example C81_vector_ex : acc exm (v_sizep (mkV 5 256 400)) 4.
Proof. apply exm_acc; cbn; lia. Qed.
Theorem C81_jagged l m q : Forall (fun v => 0 <= v_cap v < 2 ^ 32) l -> sizes_at q l -> 0 < q -> acc m q (4 * Z.of_nat (length l)) ->
  exists m', setup_jagged l m = (Ret tt, m') /\ changes (within q (4 * Z.of_nat (length l))) m m' /\ jagged_sizes m' l (repeat 0 (length l)).
Proof. exact (setup_jagged_thm l m q). Qed.
Print Assumptions C81_jagged.
Example C81_jagged_ex : Forall (fun v => 0 <= v_cap v < 2 ^ 32) ex_to /\ sizes_at 300 ex_to /\ acc exm 300 (4 * Z.of_nat (length ex_to)).
Proof. split; [repeat constructor; cbn; lia|]. split; [exact ex_sizes_at|apply exm_acc; cbn; lia]. Qed.
Theorem C81_jagged_fixed l m : fixed_sizes l -> setup_jagged l m = (Ret tt, m).
Proof. exact (setup_jagged_fixed l m). Qed.
Print Assumptions C81_jagged_fixed.
