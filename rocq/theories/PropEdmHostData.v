(** get_data of SoA containers in host memory: C142. *)
From Verif Require Import EdmHostData ViewsProofs EdmHostDataProofs.
From Coq Require Import Permutation.

(** The calls of the memory resource, newest first: those of the log after [h]. *)
Definition calls_after (log : list ev) (h : list uevent) : list uevent :=
  fold_left (fun h e => match e with EAlloc s a r => UAlloc s a r :: h | EFree p s a => UFree p s a :: h | _ => h end) log h.

(** All vector variables, one dimensional or jagged, have [n] elements; there is one. *)
Definition sized (ps : list eplace) (n : nat) : Prop :=
  (forall k p, In (PVec k p) ps -> k = n) /\ (forall rows, In (PJag rows) ps -> length rows = n) /\
  exists x, In x ps /\ match x with PScalar _ => False | _ => True end.

Lemma sized_spec ps n : sized ps n -> existsb is_vector ps = true /\ forall x k, In x ps -> plen x = Some k -> k = n.
Proof.
  intros (H1 & H2 & x & Hx & V). split; [apply existsb_exists; exists x; split; [exact Hx|destruct x; [contradiction|reflexivity|reflexivity]]|].
  intros [p|c p|rows] k Hy E; cbn [plen] in E; [discriminate|injection E as <-; eapply H1; eauto|injection E as <-; apply H2; assumption].
Qed.

(** The device container made from the result, also through a view of another constness,
    gives for each index the elements of the host container. *)
Theorem C142_access : forall rd vars n ps ans m h d log m',
  sized ps n -> Z.of_nat n < 2 ^ 32 ->
  (forall rows c q, In (PJag rows) ps -> In (c, q) rows -> 0 <= c < 2 ^ 32 /\ 0 <= q < 2 ^ 64) ->
  Forall2 (fun v x => match x with PScalar _ => vk v = KScalar | PVec _ _ => vk v = KVector | PJag _ => vk v = KJagged end) vars ps ->
  edm_get_data ps ans m = (Ret d, log, m') ->
  upstream_ok (calls_after log h) -> frees_ok h -> (forall s p, In (EAlloc s 16 (Some p)) log -> acc m p s) ->
  exists dev, device_of vars d m' = Ret dev /\ device_of vars (edata_convert d) m' = Ret dev /\
    dev_size rd dev = Ret (Z.of_nat n) /\ dev_capacity dev = Ret (Z.of_nat n) /\
    (forall i, (n <= i)%nat -> dev_at rd vars dev (Z.of_nat i) = UB) /\
    forall i, (i < n)%nat -> exists rs, dev_at rd vars dev (Z.of_nat i) = Ret rs /\ length rs = length ps /\
      forall j v x, nth_error vars j = Some v -> nth_error ps j = Some x ->
        match x with
        | PScalar p => nth_error rs j = Some (RAt p)
        | PVec _ p => nth_error rs j = Some (RAt (p + Z.of_nat i * ve_sz v))
        | PJag rows => exists c q, nth_error rows i = Some (c, q) /\ nth_error rs j = Some (RRow (mkView c 0 q))
        end.
Proof.
  intros rd vars n ps ans m h d log m' HZ Hn HR HK E HU HF HA. destruct (sized_spec ps n HZ) as (HV & HS).
  assert (HR' : forall rows, In (PJag rows) ps -> Forall row_ok rows).
  { intros rows Hr. apply Forall_forall. intros [c q] Hc. exact (HR rows c q Hr Hc). }
  destruct (access_thm rd vars n ps ans m h d log m' HV HS Hn HR' HK E HU HF HA) as (dev & D1 & D2 & D3 & D4 & D5).
  exists dev. do 4 (split; [assumption|]). split.
  { intros i Hi. rewrite D5. destruct (Nat.ltb_spec i n); [lia|reflexivity]. }
  intros i Hi. exists (map2 (item_at i) vars ps). rewrite D5. destruct (Nat.ltb_spec i n); [|lia]. split; [reflexivity|].
  assert (HS' : forall rows, In (PJag rows) ps -> length rows = n) by (intros; eapply HS; eauto; reflexivity).
  clear - HK HS' Hi. induction HK as [|v x vars ps K HK IH]; [split; [reflexivity|intros [|j] v x Hv; discriminate]|].
  destruct IH as (L & IH); [intros; apply HS'; right; assumption|]. cbn [map2 length]. split; [congruence|].
  intros [|j] v' x' Hv Hx; cbn [nth_error] in Hv, Hx |- *; [|apply IH; assumption].
  injection Hv as <-. injection Hx as <-. destruct x as [p|k p|rows]; cbn [item_at]; auto.
  specialize (HS' rows (or_introl eq_refl)). destruct (nth_error rows i) as [[c q]|] eqn:EN; [|apply nth_error_None in EN; lia].
  exists c, q. rewrite (nth_error_nth rows i _ EN). auto.
Qed.
Print Assumptions C142_access.

(** The memory of the result: get_data writes only to memory that it allocates; the blocks
    held are the descriptions that the result refers to, one for each jagged vector, and the
    result gives them back when it is destroyed; when an allocation fails nothing is kept. *)
Theorem C142_memory : forall n ps ans m h r log m',
  sized ps n -> Z.of_nat n < 2 ^ 32 -> edm_get_data ps ans m = (r, log, m') ->
  upstream_ok (calls_after log h) -> frees_ok h -> (forall s p, In (EAlloc s 16 (Some p)) log -> acc m p s) ->
  frees_ok (calls_after log h) /\
  (forall x, (forall s p, In (EAlloc s 16 (Some p)) log -> ~ p <= x < p + s) -> m_byte m' x = m_byte m x) /\
  ((exists d, r = Ret d /\
      Permutation (ulive (calls_after log h))
        (flat_map (fun v => match v with
                            | Some (DJag j) => if j_size j =? 0 then [] else [mkBlock (j_ptr j) (24 * j_size j) 16]
                            | _ => [] end) (d_views d) ++ ulive h) /\
      frees_ok (calls_after (log ++ edata_destroy d) h) /\
      Permutation (ulive (calls_after (log ++ edata_destroy d) h)) (ulive h)) \/
   (r = Throw bad_alloc /\ (exists s a, In (EAlloc s a None) log) /\ Permutation (ulive (calls_after log h)) (ulive h))).
Proof.
  intros n ps ans m h r log m' HZ Hn E HU HF HA. destruct (sized_spec ps n HZ) as (HV & HS).
  destruct (memory_thm n ps ans m h r log m' HV HS Hn E HU HF HA) as (A & B & C). split; [exact A|]. split; [|exact C].
  intros x Hx. apply (proj1 B). intros (s & p & H1 & H2). exact (Hx s p H1 H2).
Qed.
Print Assumptions C142_memory.

(** Two vector variables of different sizes: std::length_error, before anything is allocated. *)
Theorem C142_length : forall ps ans m x y i j, In x ps -> In y ps ->
  let size v := match v with PScalar _ => None | PVec n _ => Some n | PJag rows => Some (length rows) end in
  size x = Some i -> size y = Some j -> i <> j ->
  edm_get_data ps ans m = (Throw length_error, [], m).
Proof. intros ps ans m x y i j Hx Hy size Ex Ey Hij. exact (length_thm ps ans m x y i j Hx Hy Ex Ey Hij). Qed.
Print Assumptions C142_length.

(** With only scalars the capacity and the size of the result have no value, so that making
    a device container from it is undefined: for all such containers. *)
Theorem C142_refuted : forall ps ans m vars, (forall x, In x ps -> exists p, x = PScalar p) ->
  exists d, edm_get_data ps ans m = (Ret d, [], m) /\ d_cap d = None /\ d_msize d = None /\ device_of vars d m = UB.
Proof.
  intros ps ans m vars H. apply scalars_thm. destruct (existsb is_vector ps) eqn:E; [|reflexivity].
  apply existsb_exists in E. destruct E as (x & Hx & V). destruct (H x Hx) as (p & ->). discriminate.
Qed.
Print Assumptions C142_refuted.

(** A scalar, a vector and two jagged vectors of two elements: the second description of the
    last variable gets the memory that the first one of the variable before has given back. *)
Definition ps142 : list eplace := [PScalar 100; PVec 2 200; PJag [(3, 1000); (0, 0)]; PJag [(1, 1100); (5, 1200)]].
Definition vars142 : list var := [mkVar KScalar 4 4; mkVar KVector 8 8; mkVar KJagged 4 4; mkVar KJagged 2 2].
Definition ans142 (k : nat) : option Z := nth k [Some 4096; Some 4160; Some 8192; Some 4096] None.
Definition mem142 : cmem := mkM (fun _ => Some 7) (fun _ => false) false.
Example C142_ex : sized ps142 2 /\
  let '(r, log, m') := edm_get_data ps142 ans142 mem142 in
  upstream_ok (calls_after log []) /\ frees_ok [] /\ (forall s p, In (EAlloc s 16 (Some p)) log -> acc mem142 p s) /\
  log = [EAlloc 48 16 (Some 4096); EAlloc 48 16 (Some 4160); EAlloc 48 16 (Some 8192); EFree 4096 48 16;
         EAlloc 48 16 (Some 4096); EFree 4160 48 16] /\
  exists d dev, r = Ret d /\ device_of vars142 d m' = Ret dev /\
    dev_at (fun _ => 0) vars142 dev 1 = Ret [RAt 100; RAt 208; RRow (mkView 0 0 0); RRow (mkView 5 0 1200)] /\
    edata_destroy d = [EFree 8192 48 16; EFree 4096 48 16].
Proof.
  split.
  { split; [|split].
    - intros k p [H|[H|[H|[H|[]]]]]; try discriminate. injection H as <- <-. reflexivity.
    - intros rows [H|[H|[H|[H|[]]]]]; try discriminate; injection H as <-; reflexivity.
    - exists (PVec 2 200). split; [right; left; reflexivity|exact I]. }
  destruct (edm_get_data ps142 ans142 mem142) as [[r log] m'] eqn:E.
  assert (L : log = [EAlloc 48 16 (Some 4096); EAlloc 48 16 (Some 4160); EAlloc 48 16 (Some 8192); EFree 4096 48 16;
         EAlloc 48 16 (Some 4096); EFree 4160 48 16]).
  { transitivity (snd (fst (edm_get_data ps142 ans142 mem142))); [rewrite E; reflexivity|vm_compute; reflexivity]. }
  split; [rewrite L; apply upstream_okb_ok; vm_compute; reflexivity|]. split; [exact I|].
  split; [intros s p _ x _; discriminate|]. split; [exact L|].
  assert (R : match edm_get_data ps142 ans142 mem142 with
              | (Ret d, _, m') => match device_of vars142 d m' with
                  | Ret dev => dev_at (fun _ => 0) vars142 dev 1 = Ret [RAt 100; RAt 208; RRow (mkView 0 0 0); RRow (mkView 5 0 1200)] /\
                               edata_destroy d = [EFree 8192 48 16; EFree 4096 48 16]
                  | _ => False end
              | _ => False end) by (vm_compute; split; reflexivity).
  rewrite E in R. destruct r as [d|e|]; try contradiction. destruct (device_of vars142 d m') as [dev|e|] eqn:ED; try contradiction.
  exists d, dev. split; [reflexivity|]. split; [exact ED|exact R].
Qed.
Example C142_fail_ex : fst (edm_get_data ps142 (fun k => nth k [Some 4096; Some 4160; Some 8192] None) mem142) =
  (Throw bad_alloc, [EAlloc 48 16 (Some 4096); EAlloc 48 16 (Some 4160); EAlloc 48 16 (Some 8192); EFree 4096 48 16;
                     EAlloc 48 16 None; EFree 4160 48 16; EFree 8192 48 16]).
Proof. vm_compute. reflexivity. Qed.
Example C142_refuted_ex : forall x, In x [PScalar 100; PScalar 104] -> exists p, x = PScalar p.
Proof. intros x [<-|[<-|[]]]; eauto. Qed.
