(** Properties C138 and C139: data races between threads that append to containers. *)
From Verif Require Import Races EdmDevice EdmKernel EdmKernelProofs.
From Verif Require Import Base BaseLemmas Copy CopyProofs Kernel KernelProofs KernelSafe Views JaggedKernel JaggedKernelProofs RacesProofs.

(** C138: thread [i] makes access [a] after the steps [before], thread [j] makes access [b]
    after the further steps [mid]. *)
Theorem C138_vector sz v m n0 vals before mid m1 thr1 m2 thr2 i j ti tj a b : 0 < sz -> v_sizep v <> 0 -> view_size m v n0 ->
  acc m (v_ptr v) (v_cap v * sz) -> Forall (fun b => Z.of_nat (length b) = sz) vals -> apart (v_sizep v) 4 (v_ptr v) (v_cap v * sz) ->
  k_run sz v (m, map KCall vals) before = Ret (m1, thr1) -> k_run sz v (m1, thr1) mid = Ret (m2, thr2) -> i <> j ->
  nth_error thr1 i = Some ti -> nth_error thr2 j = Some tj -> In a (k_access sz v ti) -> In b (k_access sz v tj) ->
  let share_a_byte := exists x, a_ptr a <= x < a_ptr a + a_len a /\ a_ptr b <= x < a_ptr b + a_len b in
  let one_writes := a_how a = atomic_add \/ a_how a = plain_write \/ a_how b = atomic_add \/ a_how b = plain_write in
  let both_atomic := (a_how a = atomic_add \/ a_how a = atomic_load) /\ (a_how b = atomic_add \/ a_how b = atomic_load) in
  share_a_byte -> one_writes -> both_atomic.
Proof.
  intros H1 H2 H3 H4 H5 H6 H7 H8 H9 H10 H11 H12 H13 share w both S W.
  exact (no_conflict_atomic a b (kernel_races sz v m n0 vals before mid m1 thr1 m2 thr2 i j ti tj a b H1 H2 H3 H4 H5 H6 H7 H8 H9 H10 H11 H12 H13) S W).
Qed.
Print Assumptions C138_vector.

Theorem C138_jagged sz jv views olds vals m before mid m1 thr1 m2 thr2 i j ti tj a b : 0 < sz -> length olds = length views ->
  j_size jv = Z.of_nat (length views) ->
  get_bytes m (j_ptr jv) (24 * length views) = Some (flat_map view_bytes_of views) ->
  (forall r bs, In (r, bs) vals -> (r < length views)%nat /\ Z.of_nat (length bs) = sz) ->
  let memory v x := within (v_sizep v) 4 x \/ within (v_ptr v) (v_cap v * sz) x in
  (forall r v old, nth_error views r = Some v /\ nth_error olds r = Some old ->
     v_sizep v <> 0 /\ 0 <= v_sizep v < 2 ^ 64 /\ 0 <= v_ptr v < 2 ^ 64 /\
     view_size m v (Z.of_nat (length old)) /\ apart (v_sizep v) 4 (v_ptr v) (v_cap v * sz) /\ acc m (v_ptr v) (v_cap v * sz) /\
     Forall (fun b => Z.of_nat (length b) = sz) old /\ get_bytes m (v_ptr v) (Z.to_nat (Z.of_nat (length old) * sz)) = Some (concat old)) ->
  (forall v x, In v views -> memory v x -> within (j_ptr jv) (24 * Z.of_nat (length views)) x -> False) ->
  (forall r1 r2 v1 v2 x, r1 <> r2 -> nth_error views r1 = Some v1 -> nth_error views r2 = Some v2 -> memory v1 x -> memory v2 x -> False) ->
  jk_run sz jv (m, map (fun c => JAt (fst c) (snd c)) vals) before = Ret (m1, thr1) -> jk_run sz jv (m1, thr1) mid = Ret (m2, thr2) -> i <> j ->
  nth_error thr1 i = Some ti -> nth_error thr2 j = Some tj -> In a (jk_access sz jv ti) -> In b (jk_access sz jv tj) ->
  let share_a_byte := exists x, a_ptr a <= x < a_ptr a + a_len a /\ a_ptr b <= x < a_ptr b + a_len b in
  let one_writes := a_how a = atomic_add \/ a_how a = plain_write \/ a_how b = atomic_add \/ a_how b = plain_write in
  let both_atomic := (a_how a = atomic_add \/ a_how a = atomic_load) /\ (a_how b = atomic_add \/ a_how b = atomic_load) in
  share_a_byte -> one_writes -> both_atomic.
Proof.
  intros H1 H2 H3 H4 H5 memory H6 H7 H8 H9 H10 H11 H12 H13 H14 H15 share w both S W.
  exact (no_conflict_atomic a b (jagged_races sz H1 jv views olds vals m H2 H3 H4 H5 H6 H7 H8 before mid m1 thr1 m2 thr2 i j ti tj a b H9 H10 H11 H12 H13 H14 H15) S W).
Qed.
Print Assumptions C138_jagged.

(** Two threads that have claimed neighbouring slots of a vector of two byte elements, and a
    third one that is going to claim the next one. *)
Example C138_ex : let m := put_bytes (mkM (fun _ => Some 0) (fun x => 4096 <=? x) true) 4112 (le32 1) in let v := mkV 4 4112 4128 in
  view_size m v 1 /\ apart 4112 4 4128 8 /\
  match k_run 2 v (m, map KCall [[1; 2]; [3; 4]; [5; 6]]) [1; 0]%nat with
  | Ret (m1, thr1) => map (k_access 2 v) thr1 = [[mkAccess 4132 2 plain_write]; [mkAccess 4130 2 plain_write]; [mkAccess 4112 4 atomic_add]]
  | _ => False
  end.
Proof.
  cbv zeta. split; [split; [cbn; lia|]; split; [cbn; lia|vm_compute; reflexivity]|]. split; [intros x Hx; lia|]. vm_compute. reflexivity.
Qed.

(** The same in two inner vectors of a jagged vector; the fourth thread reads the description
    of the first one. *)
Example C138_jagged_ex : let views := [mkV 2 4112 4128; mkV 2 4120 4136] in
  let m := put_bytes (mkM (fun _ => Some 0) (fun x => 4096 <=? x) true) 8192 (flat_map view_bytes_of views) in
  get_bytes m 8192 48 = Some (flat_map view_bytes_of views) /\
  (forall r v, nth_error views r = Some v -> view_size m v 0) /\
  match jk_run 2 (mkJ 2 8192 8192) (m, map (fun c => JAt (fst c) (snd c)) [(0%nat, [1; 2]); (1%nat, [3; 4]); (1%nat, [5; 6]); (0%nat, [7; 8])]) [2; 2; 1; 1; 0]%nat with
  | Ret (m1, thr1) => map (jk_access 2 (mkJ 2 8192 8192)) thr1 =
      [[mkAccess 4112 4 atomic_add]; [mkAccess 4138 2 plain_write]; [mkAccess 4136 2 plain_write]; [mkAccess 8192 24 plain_read]]
  | _ => False
  end.
Proof.
  cbv zeta. split; [vm_compute; reflexivity|]. split.
  { intros [|[|r]] v H; cbn in H; [injection H as <-|injection H as <-|destruct r; discriminate];
      (split; [cbn; lia|]; split; [cbn; lia|vm_compute; reflexivity]). }
  vm_compute. reflexivity.
Qed.

(** C139 does not hold: edm::device::at, in its assertion, reads the size of the container
    with [*m_size], while another thread increases it in push_back_default.  Both accesses
    are the next step of their threads. *)
Definition vars139 : list var := [mkVar KVector 2 2; mkVar KScalar 4 4; mkVar KVector 1 1].
Definition dev139 : edev := mkDev 4 4112 [EVector (mkView 4 4112 4128); EScalar 4120; EVector (mkView 4 4112 4140)].
Definition mem139 : cmem := put_bytes (mkM (fun _ => Some 7) (fun x => 4096 <=? x) true) 4112 (le32 1).
Definition rows139 : list (list (option (list Z))) := [[Some [1; 2]; None; Some [3]]; [Some [4; 5]; None; Some [6]]].
Theorem C139_refuted : exists m1 thr1 t0 t1 a b,
  e_run vars139 dev139 [[0; 0]; []; [0]] (mem139, map ECall rows139) [0; 0; 0; 0; 0]%nat = Ret (m1, thr1) /\
  nth_error thr1 0 = Some t0 /\ nth_error thr1 1 = Some t1 /\ In a (e_access vars139 dev139 t0) /\ In b (e_access vars139 dev139 t1) /\
  a = mkAccess 4112 4 plain_read /\ b = mkAccess 4112 4 atomic_add /\ conflict a b /\
  (exists s, e_step vars139 dev139 [[0; 0]; []; [0]] (m1, thr1) 0 = Ret s) /\ (exists s, e_step vars139 dev139 [[0; 0]; []; [0]] (m1, thr1) 1 = Ret s).
Proof.
  do 6 eexists. split; [vm_compute; reflexivity|]. split; [reflexivity|]. split; [reflexivity|]. split; [left; reflexivity|]. split; [left; reflexivity|].
  split; [reflexivity|]. split; [reflexivity|]. split; [split; [exists 4112; cbn; lia|split; reflexivity]|]. split; eexists; reflexivity.
Qed.
Print Assumptions C139_refuted.

(** These are the only accesses that conflict. *)
Theorem C139_only_at_partial vars d dflt m n0 (rows : list (list (option (list Z)))) before mid m1 thr1 m2 thr2 i j ti tj a b :
  length (ed_vars d) = length vars -> ed_sizep d <> 0 -> ed_cap d < 2 ^ 32 ->
  (forall k v x, nth_error vars k = Some v -> nth_error (ed_vars d) k = Some x ->
     match x with
     | EScalar _ => True
     | EVector y => 0 < ve_sz v /\ Placement.v_cap y = ed_cap d /\ Placement.v_size y = ed_sizep d /\
         acc m (Placement.v_ptr y) (ed_cap d * ve_sz v) /\ apart (ed_sizep d) 4 (Placement.v_ptr y) (ed_cap d * ve_sz v) /\
         Z.of_nat (length (nth k dflt [])) = ve_sz v
     | EJagged _ _ _ _ => False
     end) ->
  (forall k k' v v' y y', k <> k' -> nth_error vars k = Some v -> nth_error vars k' = Some v' ->
     nth_error (ed_vars d) k = Some (EVector y) -> nth_error (ed_vars d) k' = Some (EVector y') ->
     apart (Placement.v_ptr y) (ed_cap d * ve_sz v) (Placement.v_ptr y') (ed_cap d * ve_sz v')) ->
  get_bytes m (ed_sizep d) 4 = Some (le32 n0) -> 0 <= n0 <= ed_cap d ->
  (forall row k bs, In row rows -> nth_error row k = Some (Some bs) ->
     exists v y, nth_error vars k = Some v /\ nth_error (ed_vars d) k = Some (EVector y) /\ Z.of_nat (length bs) = ve_sz v) ->
  e_run vars d dflt (m, map ECall rows) before = Ret (m1, thr1) -> e_run vars d dflt (m1, thr1) mid = Ret (m2, thr2) -> i <> j ->
  nth_error thr1 i = Some ti -> nth_error thr2 j = Some tj -> In a (e_access vars d ti) -> In b (e_access vars d tj) ->
  let share_a_byte := exists x, a_ptr a <= x < a_ptr a + a_len a /\ a_ptr b <= x < a_ptr b + a_len b in
  let one_writes := a_how a = atomic_add \/ a_how a = plain_write \/ a_how b = atomic_add \/ a_how b = plain_write in
  let both_atomic := (a_how a = atomic_add \/ a_how a = atomic_load) /\ (a_how b = atomic_add \/ a_how b = atomic_load) in
  share_a_byte -> one_writes -> both_atomic \/
  (exists idx row row', ti = EAt idx row /\ tj = ECall row') \/ (exists idx row row', ti = ECall row' /\ tj = EAt idx row).
Proof.
  intros H1 H2 H3 H4 H5 H6 H7 H8 H9 H10 H11 H12 H13 H14 H15 share w both S W.
  exact (conflict_or_atomic a b _ (edm_races vars d dflt m n0 rows before mid m1 thr1 m2 thr2 i j ti tj a b H1 H2 H3 H4 H5 H6 H7 H8 H9 H10 H11 H12 H13 H14 H15) S W).
Qed.
Print Assumptions C139_only_at_partial.
