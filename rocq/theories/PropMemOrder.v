(** C148: the memory orders of device_atomic_ref. *)
From Verif Require Import Base Atomics MemOrder MemOrderProofs.
From Coq Require Import ZArith List Bool Arith Lia.
Import ListNotations.
Local Open Scope Z_scope.

(** Thread, index in its program and value read, of the accesses in the order in which they are
    performed. *)
Definition seen (ps : list (list access)) (s : list (nat * nat)) : option (list (nat * nat * Z)) :=
  option_map (map (fun e => (e_thread e, e_index e, e_old e))) (run (fun _ => 0) (map numbered ps) s).

(** REFUTED: with CUDA and HIP the orders of exchange and of the other read-modify-write functions are
    ignored.  One thread writes the data (location 0) and then changes the flag (location 1), with any
    order; another one reads the flag, with any order, and then the data; it sees the new flag and the
    old data.  The same with compare_exchange_strong, and with store and load of the custom
    implementation for SYCL.  Finally, two threads that each announce themselves and then look for the
    other one by two calls of fetch_add miss each other. *)
Theorem C148_refuted : forall o o' f,
  let late i g h := seen [plain_write 0 42 :: lower i 1 g o; lower i 1 h o' ++ [plain_read 0]] [(0, 1); (1, 0); (1, 0); (0, 0)]%nat in
  let new_flag_old_data v := Some [(0%nat, 1%nat, 0); (1%nat, 0%nat, v); (1%nat, 1%nat, 0); (0%nat, 0%nat, 0)] in
  late ICuda (ORmw f) (ORmw (fun z => z + 0)) = new_flag_old_data (f 0) /\
  late ICuda (OCas 0 1 (failure_order o) true) (OCas 1 2 (failure_order o') true) = new_flag_old_data 1 /\
  late ISyclCustom (OStore 1) OLoad = new_flag_old_data 1 /\
  (let announce x y := lower ICuda x (ORmw (fun z => z + 1)) o ++ lower ICuda y (ORmw (fun z => z + 0)) o in
   seen [announce 0%nat 1%nat; announce 1%nat 0%nat] [(0, 1); (1, 0); (1, 0); (0, 0)]%nat =
   Some [(0%nat, 1%nat, 0); (1%nat, 0%nat, 0); (1%nat, 1%nat, 0); (0%nat, 0%nat, 0)]).
Proof. intros o o' f. repeat split; vm_compute; reflexivity. Qed.
Print Assumptions C148_refuted.

(** For all functions of posix_device_atomic_ref, and for store and load with CUDA and HIP: what a
    thread does before an operation that releases is performed before that operation. *)
Theorem C148_release_partial : forall i x f o ps t pre post s m tr,
  i = IPosix \/ i = ICuda /\ (f = OLoad \/ exists v, f = OStore v) ->
  In o [Release; AcqRel; SeqCst] -> f <> OLoad -> (forall e d fo, f <> OCas e d fo false) ->
  nth_error ps t = Some (pre ++ lower i x f o ++ post) -> run m (map numbered ps) s = Some tr ->
  forall k km a, (k < length pre)%nat -> nth_error (lower i x f o) km = Some a -> a_loc a = Some x ->
  forall j e, nth_error tr j = Some e -> e_thread e = t -> e_index e = (length pre + km)%nat ->
  exists j' e', (j' < j)%nat /\ nth_error tr j' = Some e' /\ e_thread e' = t /\ e_index e' = k.
Proof. exact release_ord. Qed.
Print Assumptions C148_release_partial.

(** What a thread does after an operation that acquires is performed after that operation; the
    order of a compare_exchange_strong that does not exchange is the failure order. *)
Theorem C148_acquire_partial : forall i x f o ps t pre post s m tr,
  i = IPosix \/ i = ICuda /\ (f = OLoad \/ exists v, f = OStore v) ->
  In (match f with OCas _ _ failure false => failure | _ => o end) [Consume; Acquire; AcqRel; SeqCst] -> (forall v, f <> OStore v) ->
  nth_error ps t = Some (pre ++ lower i x f o ++ post) -> run m (map numbered ps) s = Some tr ->
  forall k km a, (length pre + length (lower i x f o) <= k)%nat -> nth_error (lower i x f o) km = Some a -> a_loc a = Some x ->
  forall j e, nth_error tr j = Some e -> e_thread e = t -> e_index e = k ->
  exists j' e', (j' < j)%nat /\ nth_error tr j' = Some e' /\ e_thread e' = t /\ e_index e' = (length pre + km)%nat.
Proof. exact acquire_ord. Qed.
Print Assumptions C148_acquire_partial.

(** Sequentially consistent operations of a thread are performed in the order of the program,
    whatever is between them. *)
Theorem C148_seq_cst_partial : forall i x f y g ps t pre mid post s m tr,
  (forall h, h = f \/ h = g -> (i = IPosix \/ i = ICuda /\ (h = OLoad \/ exists v, h = OStore v)) /\
     match h with OCas _ _ failure false => failure = SeqCst | _ => True end) ->
  nth_error ps t = Some (pre ++ lower i x f SeqCst ++ mid ++ lower i y g SeqCst ++ post) -> run m (map numbered ps) s = Some tr ->
  forall k1 k2 a b, nth_error (lower i x f SeqCst) k1 = Some a -> a_loc a = Some x -> nth_error (lower i y g SeqCst) k2 = Some b -> a_loc b = Some y ->
  forall j e, nth_error tr j = Some e -> e_thread e = t -> e_index e = (length pre + (length (lower i x f SeqCst) + (length mid + k2)))%nat ->
  exists j' e', (j' < j)%nat /\ nth_error tr j' = Some e' /\ e_thread e' = t /\ e_index e' = (length pre + k1)%nat.
Proof. exact sc_ord. Qed.
Print Assumptions C148_seq_cst_partial.

(** Messages: a thread writes [d] and later publishes with [f]; another one uses [g] and later reads
    [d].  If no other access changes the data and the flag [x], and [g] sees a changed flag, then the
    data that were written are read.  There can be any other threads and accesses. *)
Theorem C148_message_partial : forall i x f o g o' d v ps t1 t2 pre1 post1 pre2 post2 s m tr,
  (forall h, h = f \/ h = g -> i = IPosix \/ i = ICuda /\ (h = OLoad \/ exists w, h = OStore w)) ->
  In o [Release; AcqRel; SeqCst] -> f <> OLoad -> (forall e d' fo, f <> OCas e d' fo false) ->
  In (match g with OCas _ _ failure false => failure | _ => o' end) [Consume; Acquire; AcqRel; SeqCst] -> (forall w, g <> OStore w) ->
  nth_error ps t1 = Some (pre1 ++ lower i x f o ++ post1) -> nth_error ps t2 = Some (pre2 ++ lower i x g o' ++ post2) ->
  forall kf kg kd kr a b c,
  nth_error (lower i x f o) kf = Some a -> a_loc a = Some x -> nth_error (lower i x g o') kg = Some b -> a_loc b = Some x ->
  nth_error pre1 kd = Some (plain_write d v) -> nth_error post2 kr = Some c -> a_loc c = Some d ->
  (forall t p k a', nth_error ps t = Some p -> nth_error p k = Some a' ->
     a_loc a' = Some x /\ (t, k) <> (t1, (length pre1 + kf)%nat) \/ a_loc a' = Some d /\ (t, k) <> (t1, kd) -> forall z, a_new a' z = z) ->
  run m (map numbered ps) s = Some tr ->
  forall eg er, In eg tr -> e_thread eg = t2 -> e_index eg = (length pre2 + kg)%nat -> e_old eg <> m x ->
  In er tr -> e_thread er = t2 -> e_index er = (length pre2 + (length (lower i x g o') + kr))%nat -> e_old er = v.
Proof. exact message_ord. Qed.
Print Assumptions C148_message_partial.

(** The failure order that compare_exchange_strong derives from its one order is as strong as
    possible: it acquires if the order does, and is sequentially consistent if the order is. *)
Theorem C148_failure_order : forall o,
  (In o [Consume; Acquire; AcqRel; SeqCst] <-> In (failure_order o) [Consume; Acquire; AcqRel; SeqCst]) /\
  (o = SeqCst <-> failure_order o = SeqCst) /\ ~ In (failure_order o) [Release; AcqRel].
Proof. intros []; cbn; intuition discriminate. Qed.
Print Assumptions C148_failure_order.

(** What an operation does to its location, with every implementation and order: it makes one access to
    it (all other accesses are fences), which is performed for the values, and leaves the value, that
    the operation is defined by. *)
Theorem C148_effect : forall i x f o,
  (exists pre a post, lower i x f o = pre ++ a :: post /\ a_loc a = Some x /\
     (forall b, In b (pre ++ post) -> a_loc b = None) /\
     forall z,
       match f with
       | OStore v => a_if a z = true /\ a_new a z = v
       | OLoad => a_if a z = true /\ a_new a z = z
       | ORmw g => a_if a z = true /\ a_new a z = g z
       | OCas e d _ true => (a_if a z = true <-> z = e) /\ a_new a z = d
       | OCas e d _ false => (a_if a z = true <-> z <> e) /\ a_new a z = z
       end).
Proof. exact lower_effect. Qed.
Print Assumptions C148_effect.

(** The operations of the other cases of C148_refuted order nothing, whatever the order is. *)
Theorem C148_unordered : forall i x f o a,
  i = ICuda /\ f <> OLoad /\ (forall v, f <> OStore v) \/ i = ISyclCustom ->
  In a (lower i x f o) -> a_loc a = Some x /\ a_acq a = false /\ a_rel a = false /\ a_sc a = false.
Proof. exact lower_unordered. Qed.
Print Assumptions C148_unordered.

(** A message with store and load: the reader that sees the flag sees the data, although the accesses
    of the writer before the flag are performed in another order than in the program. *)
Example C148_cuda_ex :
  seen [[plain_write 0 42; plain_write 2 43] ++ lower ICuda 1 (OStore 1) Release; lower ICuda 1 OLoad Acquire ++ [plain_read 0]]
    [(0, 1); (0, 0); (0, 0); (0, 0); (1, 0); (1, 0); (1, 0); (1, 0)]%nat =
  Some [(0%nat, 1%nat, 0); (0%nat, 0%nat, 0); (0%nat, 2%nat, 0); (0%nat, 3%nat, 0); (1%nat, 0%nat, 0); (1%nat, 1%nat, 1); (1%nat, 2%nat, 0); (1%nat, 3%nat, 42)].
Proof. vm_compute. reflexivity. Qed.
(** Without the fences this order would be possible; it is not an execution. *)
Example C148_cuda_ex2 :
  seen [plain_write 0 42 :: lower ICuda 1 (OStore 1) Release; lower ICuda 1 OLoad Acquire ++ [plain_read 0]] [(0, 2)]%nat = None /\
  seen [plain_write 0 42 :: lower IPosix 1 (ORmw (fun _ => 1)) AcqRel] [(0, 1)]%nat = None /\
  seen [plain_write 0 42 :: lower IPosix 1 (ORmw (fun _ => 1)) Acquire] [(0, 1); (0, 0)]%nat = Some [(0%nat, 1%nat, 0); (0%nat, 0%nat, 0)].
Proof. repeat split. Qed.
(** The hypotheses of the theorem on messages, with fetch_add and a failing compare_exchange_strong. *)
Example C148_message_ex : forall s tr,
  let ps := [[plain_write 0 42] ++ lower IPosix 1 (ORmw (fun z => z + 1)) Release ++ []; [] ++ lower IPosix 1 (OCas 0 7 (failure_order AcqRel) false) AcqRel ++ [plain_read 0]] in
  run (fun _ => 0) (map numbered ps) s = Some tr ->
  forall er, In er tr -> e_thread er = 1%nat -> e_index er = 1%nat -> (exists eg, In eg tr /\ e_thread eg = 1%nat /\ e_index eg = 0%nat /\ e_old eg <> 0) -> e_old er = 42.
Proof.
  intros s tr ps R er Ir T I (eg & Ig & Tg & Eg & Vg).
  eapply (C148_message_partial IPosix 1 (ORmw (fun z => z + 1)) Release (OCas 0 7 (failure_order AcqRel) false) AcqRel 0 42 ps 0 1
    [plain_write 0 42] [] [] [plain_read 0] s (fun _ => 0) tr) with (kf := 0%nat) (kg := 0%nat) (kd := 0%nat) (kr := 0%nat) (eg := eg) (er := er);
    try reflexivity; try eassumption; try (intros; discriminate); try (cbn; tauto).
  intros t p k a' Np Nk C z. destruct t as [|[|[|]]]; cbn in Np; try discriminate; inversion Np; subst p;
    (destruct k as [|[|[|]]]; cbn in Nk; try discriminate; inversion Nk; subst a'); cbn in *; destruct C as [[L D]|[L D]]; try discriminate; try congruence; reflexivity.
Qed.
(** A failing and a succeeding compare_exchange_strong, without any order. *)
Example C148_effect_ex :
  seen (map (fun r => lower ICuda 0 (OCas 0 7 (failure_order SeqCst) r) SeqCst) [false; true]) [(1, 0); (0, 0)]%nat = Some [(1%nat, 0%nat, 0); (0%nat, 0%nat, 7)] /\
  seen (map (fun r => lower ICuda 0 (OCas 0 7 (failure_order SeqCst) r) SeqCst) [false; true]) [(0, 0); (1, 0)]%nat = None.
Proof. split; reflexivity. Qed.
