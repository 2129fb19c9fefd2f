(** Properties C124 and C125: edm::device. *)
From Verif Require Import Base BaseLemmas IntMath Align Placement PlacementProofs EdmBuffer EdmBufferTheorems EdmBufferFinal
  EdmDevice EdmDeviceProofs.

(** C124.  [rd] tells what the counters in memory hold; [item_is] says which scalar,
    element or inner vector the element of a proxy is; [ref_block] is its memory. *)
Theorem C124_access : forall vars caps rs host w hw e w' hw' rd n, vars <> [] -> vars_ok vars ->
  Forall (fun c => 0 <= c < 2 ^ 32) caps -> Z.of_nat (length caps) < 2 ^ 32 -> total caps < 2 ^ 32 ->
  need_all (edm_sects vars caps rs) < 2 ^ 32 ->
  edm_buffer vars caps rs host w hw = (Ret e, w', hw') -> upstream_ok (ulog w') -> upstream_ok (ulog hw') ->
  n = (if rs && negb (existsb is_jagged vars) then rd (m_ptr (eb_size e)) else Z.of_nat (length caps)) ->
  n <= Z.of_nat (length caps) ->
  exists d, dev_make vars (eb_cap e) (eb_size e) (eb_views e) = Ret d /\
    dev_capacity d = Ret (Z.of_nat (length caps)) /\ dev_size rd d = Ret n /\
    forall i, 0 <= i ->
      (i < n -> exists items, dev_at rd vars d i = Ret items /\ dev_index rd vars d i = Ret items /\ length items = length vars /\
         forall k v x, nth_error vars k = Some v -> nth_error (eb_views e) k = Some x ->
           exists r, nth_error items k = Some r /\ item_is caps k v x i r /\
             (0 < bsize (ref_block v r) -> inside (ref_block v r) (eb_mem e) /\ (ve_al v | bptr (ref_block v r)))) /\
      (n <= i -> dev_at rd vars d i = UB).
Proof.
  intros vars caps rs host w hw e w' hw' rd n H1 H2 H3 H4 H5 H6 H7 H8 H9 -> Hn.
  destruct (buffer_facts vars caps rs host w hw e w' hw' H1 H2 H3 H4 H5 H6 H7 H8 H9) as (Hl & Hc & Hs & Hz & Hd & Hp).
  eexists. split; [apply (make_ok vars caps rs e); auto|].
  split; [apply (capacity_ok vars caps rs e); auto|]. split; [apply (size_ok vars caps rs e rd); auto|].
  intros i Hi. destruct (at_ok vars caps rs e rd Hl Hs Hz i Hi Hn) as [Ha Hb]. split; [|exact Hb].
  intros Hin. destruct (Ha Hin) as (items & A1 & A2 & A3 & A4). exists items. repeat (split; [assumption|]).
  intros k v x Hv Hx. destruct (A4 k v x Hv Hx) as (r & Hr & Hit). exists r. split; [exact Hr|]. split; [exact Hit|].
  intro Hpos. apply (item_placed vars caps rs e rd) with (k := k) (x := x) (i := i); auto. split; [lia|].
  eapply Z.lt_le_trans; [exact Hin|exact Hn].
Qed.
Print Assumptions C124_access.

(** Different elements do not share memory. *)
Theorem C124_apart : forall vars caps rs host w hw e w' hw' k v x i r k' v' x' i' r', vars <> [] -> vars_ok vars ->
  Forall (fun c => 0 <= c < 2 ^ 32) caps -> Z.of_nat (length caps) < 2 ^ 32 -> total caps < 2 ^ 32 ->
  need_all (edm_sects vars caps rs) < 2 ^ 32 ->
  edm_buffer vars caps rs host w hw = (Ret e, w', hw') -> upstream_ok (ulog w') -> upstream_ok (ulog hw') ->
  nth_error vars k = Some v -> nth_error (eb_views e) k = Some x -> 0 <= i < Z.of_nat (length caps) -> item_is caps k v x i r ->
  nth_error vars k' = Some v' -> nth_error (eb_views e) k' = Some x' -> 0 <= i' < Z.of_nat (length caps) -> item_is caps k' v' x' i' r' ->
  k <> k' \/ (vk v <> KScalar /\ i <> i') -> ~ overlap (ref_block v r) (ref_block v' r').
Proof.
  intros vars caps rs host w hw e w' hw' k v x i r k' v' x' i' r' H1 H2 H3 H4 H5 H6 H7 H8 H9.
  destruct (buffer_facts vars caps rs host w hw e w' hw' H1 H2 H3 H4 H5 H6 H7 H8 H9) as (Hl & Hc & Hs & Hz & Hd & Hp).
  apply (items_apart vars caps rs e (fun _ => 0)); auto.
Qed.
Print Assumptions C124_apart.

Definition orc124 (n : nat) : option Z := Some (4096 + 16 * (1 + 1000 * Z.of_nat n)).
Definition w124 : world := mkWorld [] orc124.
Definition vars124 : list var := [mkVar KJagged 8 8; mkVar KScalar 4 4; mkVar KVector 1 1].
Example C124_ex : exists e w' hw' d, edm_buffer vars124 [2; 0; 3] true true w124 w124 = (Ret e, w', hw') /\
  upstream_ok (ulog w') /\ upstream_ok (ulog hw') /\
  dev_make vars124 (eb_cap e) (eb_size e) (eb_views e) = Ret d /\ dev_size (fun _ => 7) d = Ret 3 /\
  dev_at (fun _ => 7) vars124 d 2 = Ret [RRow (mkView 3 4120 4216); RAt 4240; RAt 4246] /\
  dev_at (fun _ => 7) vars124 d 3 = UB.
Proof.
  do 4 eexists. split; [reflexivity|]. split; [apply upstream_okb_ok; reflexivity|]. split; [apply upstream_okb_ok; reflexivity|].
  split; [reflexivity|]. split; [reflexivity|]. split; reflexivity.
Qed.
(** Without jagged vectors the size is that of the counter. *)
Definition vars124' : list var := [mkVar KVector 8 8; mkVar KScalar 4 4; mkVar KVector 16 16].
Example C124_ex_resizable : exists e w' hw' d, edm_buffer vars124' [0; 0; 0] true false w124 w124 = (Ret e, w', hw') /\
  upstream_ok (ulog w') /\
  dev_make vars124' (eb_cap e) (eb_size e) (eb_views e) = Ret d /\ dev_capacity d = Ret 3 /\ dev_size (fun _ => 2) d = Ret 2 /\
  dev_at (fun _ => 2) vars124' d 1 = Ret [RAt 4128; RAt 4144; RAt 4176] /\
  dev_at (fun _ => 2) vars124' d 2 = UB.
Proof.
  do 4 eexists. split; [reflexivity|]. split; [apply upstream_okb_ok; reflexivity|].
  split; [reflexivity|]. split; [reflexivity|]. split; [reflexivity|]. split; reflexivity.
Qed.

Lemma dev_accessors_checked (rd : Z -> Z) cap sizep views :
  let d := mkDev cap sizep views in
  let good := forall x, In x views ->
    match x with EScalar _ => True | EVector v => v_cap v = cap | EJagged n _ _ _ => n = cap end in
  (good -> dev_capacity d = Ret cap /\ dev_size rd d = Ret (if sizep =? 0 then cap else rd sizep)) /\
  (~ good -> dev_capacity d = UB /\ dev_size rd d = UB).
Proof.
  intros d good. assert (B : dev_matches d = true <-> good).
  { unfold dev_matches, good, d. cbn [ed_cap ed_vars]. rewrite forallb_forall.
    split; intros H x Hx; specialize (H x Hx); destruct x; cbn [ev_matches] in *; auto; lia. }
  unfold dev_capacity, dev_size, assert. destruct (dev_matches d) eqn:E.
  - split; [intros _; split; reflexivity|]. intros H. exfalso. apply H, B. reflexivity.
  - split; [|intros _; split; reflexivity]. intros H. apply B in H. discriminate.
Qed.

(** C125: with asserts enabled the constructor only returns for views whose capacities
    agree and whose size, if the schema uses it, is one [unsigned int]. *)
Theorem C125_checked : forall vars cap size views,
  match dev_make vars cap size views with
  | Ret d => ed_cap d = cap /\ ed_vars d = views /\
      (existsb is_jagged vars = true -> ed_sizep d = 0) /\
      (existsb is_jagged vars = false -> ed_sizep d = m_ptr size /\ (m_ptr size = 0 \/ m_len size = 4)) /\
      forall x, In x views -> match x with EScalar _ => True | EVector v => v_cap v = cap | EJagged n _ _ _ => n = cap end
  | Throw _ => False
  | UB => (existsb is_jagged vars = false /\ m_ptr size <> 0 /\ m_len size <> 4) \/
      exists x, In x views /\ match x with EScalar _ => False | EVector v => v_cap v <> cap | EJagged n _ _ _ => n <> cap end
  end.
Proof.
  intros vars cap size views. unfold dev_make, dev_size_pointer, assert, dev_matches.
  assert (Hm : forall b, forallb (ev_matches cap) views = b ->
    if b then forall x, In x views -> match x with EScalar _ => True | EVector v => v_cap v = cap | EJagged n _ _ _ => n = cap end
    else exists x, In x views /\ match x with EScalar _ => False | EVector v => v_cap v <> cap | EJagged n _ _ _ => n <> cap end).
  { intros [|] Hb.
    - rewrite forallb_forall in Hb. intros x Hx. specialize (Hb x Hx). destruct x; cbn [ev_matches] in Hb; auto; lia.
    - clear size. induction views as [|x views IH]; [discriminate|]. cbn [forallb] in Hb. destruct (ev_matches cap x) eqn:E; cbn [andb] in Hb.
      + destruct (IH Hb) as (y & Hy & Hp). exists y. split; [right; exact Hy|exact Hp].
      + exists x. split; [left; reflexivity|]. destruct x; cbn [ev_matches] in E; try discriminate; lia. }
  destruct (existsb is_jagged vars); cbn [bind].
  - cbn [ed_cap ed_vars]. destruct (forallb (ev_matches cap) views) eqn:Eb; specialize (Hm _ eq_refl); [|right; exact Hm].
    cbn [ed_cap ed_vars ed_sizep]. repeat split; auto; discriminate.
  - destruct ((m_ptr size =? 0) || (m_len size =? 4)) eqn:Ep; cbn [bind].
    + cbn [ed_cap ed_vars]. destruct (forallb (ev_matches cap) views) eqn:Eb; specialize (Hm _ eq_refl); [|right; exact Hm].
      cbn [ed_cap ed_vars ed_sizep]. split; [reflexivity|]. split; [reflexivity|]. split; [discriminate|]. split; [|exact Hm].
      intros _. split; [reflexivity|lia].
    + left. split; [reflexivity|lia].
Qed.
Print Assumptions C125_checked.

(** size() and capacity() make the same check of the capacities. *)
Theorem C125_accessors : forall (rd : Z -> Z) cap sizep views,
  let d := mkDev cap sizep views in
  let good := forall x, In x views ->
    match x with EScalar _ => True | EVector v => v_cap v = cap | EJagged n _ _ _ => n = cap end in
  (good -> dev_capacity d = Ret cap /\ dev_size rd d = Ret (if sizep =? 0 then cap else rd sizep)) /\
  (~ good -> dev_capacity d = UB /\ dev_size rd d = UB).
Proof. exact dev_accessors_checked. Qed.
Print Assumptions C125_accessors.

Example C125_ex :
  dev_make vars124' 3 (mkMem 4 4112) [EVector (mkView 3 4112 4120); EScalar 64; EVector (mkView 2 4112 4160)] = UB /\
  dev_make vars124' 3 (mkMem 8 4112) [EVector (mkView 3 4112 4120); EScalar 64; EVector (mkView 3 4112 4160)] = UB /\
  dev_make vars124' 3 (mkMem 4 4112) [EVector (mkView 3 4112 4120); EScalar 64; EVector (mkView 3 4112 4160)]
    = Ret (mkDev 3 4112 [EVector (mkView 3 4112 4120); EScalar 64; EVector (mkView 3 4112 4160)]).
Proof. repeat split. Qed.
