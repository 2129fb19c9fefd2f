(** Concrete buffers and memories for the theorems on copies of SoA containers. *)
From Verif Require Import Base BaseLemmas IntMath Placement PlacementProofs JaggedBufferProofs EdmBuffer EdmBufferProofs EdmBufferTheorems EdmBufferFinal
  EdmCopyLayout Copy CopyProofs CopyJaggedProofs CopyJaggedTheorems EdmCopy EdmCopyProofs EdmCopyViews.

(** A memory resource that returns [p]. *)
Definition world_at (p : Z) : world := mkWorld [] (fun _ => Some p).
Definition buf_at (vars : list var) (caps : list Z) (rs : bool) (p : Z) : ebuf :=
  match edm_buffer vars caps rs false (world_at p) (world_at p) with
  | (Ret e, _, _) => e
  | _ => mkEBuf 0 (mkMem 0 0) (mkMem 0 0) (mkMem 0 0) (mkMem 0 0) [] (mkBlock 0 0 0) None
  end.
Lemma buf_built vars caps rs p : need_all (edm_sects vars caps rs) < 2 ^ 32 ->
  (match edm_buffer vars caps rs false (world_at p) (world_at p) with
   | (Ret e, w', hw') => upstream_okb (ulog w') && upstream_okb (ulog hw') | _ => false end) = true -> built vars caps rs (buf_at vars caps rs p).
Proof.
  intros H1 H2. split; [exact H1|]. unfold buf_at. destruct (edm_buffer vars caps rs false (world_at p) (world_at p)) as [[[e| |] w'] hw'] eqn:E; try discriminate.
  apply Bool.andb_true_iff in H2. destruct H2 as (H2 & H3). exists false, (world_at p), (world_at p), w', hw'. split; [exact E|]. split; apply upstream_okb_ok; auto.
Qed.
Ltac built_tac := apply buf_built; vm_compute; reflexivity.
(** Every byte is accessible; device memory starts at 65536; copy types are checked. *)
Definition emem : cmem := mkM (fun x => Some (x mod 251)) (fun x => 65536 <=? x) true.

Lemma schema_okb vars caps : vars <> [] -> vars_ok vars -> forallb (fun c => (0 <=? c) && (c <? 2 ^ 32)) caps = true ->
  Z.of_nat (length caps) < 2 ^ 32 -> total caps < 2 ^ 32 -> schema_ok vars caps.
Proof.
  intros H1 H2 H3 H4 H5. split; [auto|]. split; [auto|]. split; [|auto]. apply Forall_forall. intros c Hc. rewrite forallb_forall in H3. specialize (H3 c Hc). lia.
Qed.
Ltac pow2_tac := first [exists 0; split; [lia|reflexivity]|exists 1; split; [lia|reflexivity]|exists 2; split; [lia|reflexivity]|exists 3; split; [lia|reflexivity]|
  exists 4; split; [lia|reflexivity]|exists 5; split; [lia|reflexivity]].
Ltac var_tac := cbn [ve_sz ve_al]; split; [reflexivity|]; split; [pow2_tac|apply Z.mod_divide; [discriminate|reflexivity]].
Ltac schema_tac := apply schema_okb; [discriminate| |reflexivity|reflexivity|reflexivity];
  intros v Hv; cbn in Hv; repeat (destruct Hv as [<-|Hv]; [var_tac|]); destruct Hv.

(** Scalar, vector and jagged vector. *)
Definition vars1 : list var := [mkVar KScalar 8 8; mkVar KVector 4 4; mkVar KJagged 4 4].
Definition caps1 : list Z := [2; 0; 3].
Definition eb1 : ebuf := buf_at vars1 caps1 true 4096.
Definition eb2 : ebuf := buf_at vars1 caps1 true 65536.
Definition eb1f : ebuf := buf_at vars1 caps1 false 4096.
(** A schema without jagged vectors. *)
Definition vars2 : list var := [mkVar KVector 1 1; mkVar KScalar 8 8].
Definition eb3 : ebuf := buf_at vars2 [0; 0] true 4096.
Definition eb4 : ebuf := buf_at vars2 [0] true 65536.

Lemma vars1_ok : schema_ok vars1 caps1.
Proof. schema_tac. Qed.
Lemma eb1_built : built vars1 caps1 true eb1.
Proof. built_tac. Qed.
Lemma eb2_built : built vars1 caps1 true eb2.
Proof. built_tac. Qed.
Lemma eb1f_built : built vars1 caps1 false eb1f.
Proof. built_tac. Qed.
Lemma emem_host m e p n : m_dev m = m_dev emem -> (forall x, m_byte m x <> None) -> eb_mem e = mkBlock p n 16 -> p + n <= 65536 -> region m (eb_mem e) false.
Proof.
  intros Hd Ha E H. rewrite E. split; [intros x _; apply Ha|]. intros x Hx. unfold in_block in Hx. cbn [bptr bsize] in Hx. rewrite Hd. cbn [emem m_dev]. lia.
Qed.
Lemma emem_dev m e p n : m_dev m = m_dev emem -> (forall x, m_byte m x <> None) -> eb_mem e = mkBlock p n 16 -> 65536 <= p -> region m (eb_mem e) true.
Proof.
  intros Hd Ha E H. rewrite E. split; [intros x _; apply Ha|]. intros x Hx. unfold in_block in Hx. cbn [bptr bsize] in Hx. rewrite Hd. cbn [emem m_dev]. lia.
Qed.
Lemma emem_byte : forall x, m_byte emem x <> None.
Proof. discriminate. Qed.
Lemma put_byte m a bs : (forall x, m_byte m x <> None) -> forall x, m_byte (put_bytes m a bs) x <> None.
Proof.
  intros H x. unfold put_bytes. cbn [m_byte]. destruct ((a <=? x) && (x <? a + Z.of_nat (length bs))) eqn:E; [|apply H].
  intros C. apply nth_error_None in C. lia.
Qed.
Lemma apart_mem e1 e2 p1 n1 p2 n2 : eb_mem e1 = mkBlock p1 n1 16 -> eb_mem e2 = mkBlock p2 n2 16 -> p1 + n1 <= p2 -> ~ overlap (eb_mem e1) (eb_mem e2).
Proof. intros -> -> H (x & H1 & H2). unfold in_block in *. cbn [bptr bsize] in *. lia. Qed.

(** A host container, copied into [eb2] variable by variable. *)
Definition hinner : list Placement.vview := [Placement.mkView 2 0 304; Placement.mkView 0 0 0; Placement.mkView 3 0 400].
Definition tinner : list Placement.vview := [Placement.mkView 2 65536 65644; Placement.mkView 0 65540 65652; Placement.mkView 3 65544 65652].
Definition bytes_at (m : cmem) (a : Z) (n : nat) : list Z := match get_bytes m a n with Some l => l | None => [] end.
Definition jobs1 : list job :=
  [JScalar (mkVar KScalar 8 8) 104 65624 (bytes_at emem 104 8);
   JVector (mkVar KVector 4 4) (Placement.mkView 3 0 200) (Placement.mkView 3 0 65632) 3 (bytes_at emem 200 12);
   JJagged (mkVar KJagged 4 4) hinner tinner 500 500 65552 65552
     (map (fun '(x, y, n) => mkRow (cv x) (cv y) n (bytes_at emem (Placement.v_ptr x) (Z.to_nat (n * 4)))) (combine (combine hinner tinner) [2; 0; 3]))].
Definition hview : edm_view := mkEV 3 (mkMem 0 0) (mkMem 0 0) (map job_from jobs1).

Lemma emem_acc a n : acc emem a n.
Proof. intros x _. discriminate. Qed.
Lemma jobs1_ok : Forall (job_ok host_to_device emem) jobs1.
Proof.
  repeat apply Forall_cons; [..|apply Forall_nil]; (split; [reflexivity|]).
  - split; [discriminate|]. split; [discriminate|]. split; [vm_compute; reflexivity|]. split; [apply emem_acc|]. split; [|reflexivity]. intros x Hx. cbn [ve_sz] in Hx. lia.
  - cbn [ve_sz]. split; [split; [cbn; lia|split; [reflexivity|reflexivity]]|]. split; [cbn; lia|]. split; [reflexivity|]. split; [vm_compute; reflexivity|].
    intros _. split; [discriminate|]. split; [discriminate|]. split; [apply emem_acc|]. split; [intros x Hx; cbn in Hx; lia|]. split; [reflexivity|]. cbn. lia.
  - split; [reflexivity|]. split; [reflexivity|]. split; [|split; [split|split]].
    + cbn [map combine hinner tinner ve_sz]. repeat apply Forall_cons; [..|apply Forall_nil]; unfold row_ok, view_ok; cbn [r_from r_to r_n r_data cv v_cap v_ptr Placement.v_cap Placement.v_ptr];
        (split; [split; [lia|split; [lia|apply emem_acc]]|]); (split; [split; [lia|split; [lia|apply emem_acc]]|]); (split; [lia|]); (split; [lia|]); (split; [vm_compute; reflexivity|]); intros; reflexivity.
    + cbn [map combine hinner tinner ve_sz]. repeat constructor; unfold payloads_apart, apart; cbn [r_to cv v_ptr v_cap Placement.v_cap Placement.v_ptr]; intros x Hx; lia.
    + cbn [map combine hinner tinner ve_sz]. intros r r' I I'; cbn [In] in I, I'; repeat (destruct I as [<-|I]; [repeat (destruct I' as [<-|I']; [unfold payloads_apart, apart; cbn [r_from r_to cv v_ptr v_cap Placement.v_cap Placement.v_ptr]; intros x Hx; lia|]); destruct I'|]); destruct I.
    + split; [repeat constructor; cbn; lia|]. left. split; [repeat constructor|reflexivity].
    + right. exists 65536. split.
      { split; [lia|]. intros [|[|[|i]]] v E; cbn in E; try discriminate; try (injection E as <-; reflexivity). destruct i; discriminate. }
      split; [lia|]. split; [apply emem_acc|]. cbn [map combine hinner tinner ve_sz length]. intros r x I. change (4 * Z.of_nat 3) with 12. unfold within, payload.
      cbn [In] in I; repeat (destruct I as [<-|I]; [cbn [r_from r_to cv v_ptr v_cap Placement.v_cap Placement.v_ptr]; unfold within; lia|]); destruct I.
Qed.
Lemma in_order_apart i j : (forall a, job_writes i a -> ~ job_writes j a) -> (forall a, job_reads j a -> ~ job_writes i a) -> in_order i j.
Proof. intros H1 H2. split; [|exact H2]. split; [|left]; intros a Ha; apply H1; [left|right]; exact Ha. Qed.
(** Where the jobs read and write. *)
Definition job_lo (j : job) : Z := match j with JScalar _ _ _ _ => 65624 | JVector _ _ _ _ _ => 65632 | JJagged _ _ _ _ _ _ _ _ => 65644 end.
Lemma jobs1_where j : In j jobs1 -> (forall a, job_reads j a -> a < 1000) /\
  forall a, job_writes j a -> match j with JScalar _ _ _ _ => 65624 <= a < 65632 | JVector _ _ _ _ _ => 65632 <= a < 65644 | _ => 65644 <= a < 65664 \/ 65536 <= a < 65548 end.
Proof.
  intros [<-|[<-|[<-|[]]]]; unfold job_writes; cbn [job_data job_sizes job_reads ve_sz cv v_ptr v_sizep v_cap Placement.v_cap Placement.v_ptr Placement.v_size map combine hinner tinner sizes_range r_to r_from length].
  - split; intros a Ha; unfold within in Ha; lia.
  - split; intros a Ha; unfold within in Ha; lia.
  - split; intros a [(r & Hr & Ha)|Ha]; try (unfold within in Ha; lia); cbn [In] in Hr; unfold payload in Ha;
      repeat (destruct Hr as [<-|Hr]; [cbn [r_from r_to v_ptr v_cap cv Placement.v_cap Placement.v_ptr] in Ha; unfold within in Ha; lia|]); destruct Hr.
Qed.
Lemma jobs1_order : ForallOrdPairs in_order jobs1.
Proof.
  assert (G : forall i j, In i jobs1 -> In j jobs1 -> job_lo i <> job_lo j -> in_order i j).
  { intros i j Hi Hj Hd. destruct (jobs1_where i Hi) as (R1 & W1). destruct (jobs1_where j Hj) as (R2 & W2). apply in_order_apart.
    - intros a A1 A2. specialize (W1 a A1). specialize (W2 a A2). destruct i, j; cbn [job_lo] in Hd; lia.
    - intros a A1 A2. specialize (W1 a A2). specialize (R2 a A1). destruct i; lia. }
  unfold jobs1 in *. repeat first [apply FOP_nil|apply FOP_cons|apply Forall_nil|apply Forall_cons]; (apply G; [cbn [In]; tauto|cbn [In]; tauto|cbn; lia]).
Qed.

(** Results without a normal form of the memory. *)
Lemma run_fst {A} (x : cm A) r : fst x = r -> x = (r, snd x).
Proof. destruct x. cbn. congruence. Qed.
Lemma edm_get_size_fst vars e m r : fst (edm_get_size vars e m) = r -> edm_get_size vars e m = (r, m).
Proof.
  unfold edm_get_size. destruct (jagged_schema vars); [cbn; congruence|]. destruct (m_ptr _ =? 0); [cbn; congruence|]. destruct (negb _); [cbn; congruence|].
  destruct (do_copy_out _ _ _ _) as [[bs|ex|] m'] eqn:E; rewrite (do_copy_out_same _ _ _ _ _ _ E); cbn; congruence.
Qed.
