(** Proofs about views and get_data. *)
From Verif Require Export Views BaseLemmas CopyProofs.

Lemma unle64_le64 n : 0 <= n < 2 ^ 64 -> unle64 (le64 n) = n.
Proof.
  intros H. unfold unle64, le64.
  change (firstn 4 (le32 (n mod 2 ^ 32) ++ le32 (n / 2 ^ 32))) with (le32 (n mod 2 ^ 32)).
  change (firstn 4 (skipn 4 (le32 (n mod 2 ^ 32) ++ le32 (n / 2 ^ 32)))) with (le32 (n / 2 ^ 32)).
  rewrite !unle32_le32; lia.
Qed.

Lemma view_bytes_len v : length (view_bytes_of v) = 24%nat.
Proof. reflexivity. Qed.

Lemma view_of_view_bytes v : 0 <= v_cap v < 2 ^ 32 -> 0 <= v_sizep v < 2 ^ 64 -> 0 <= v_ptr v < 2 ^ 64 ->
  view_of_bytes (view_bytes_of v) = v.
Proof.
  intros H1 H2 H3. unfold view_of_bytes.
  change (firstn 4 (view_bytes_of v)) with (le32 (v_cap v)).
  change (firstn 8 (skipn 8 (view_bytes_of v))) with (le64 (v_sizep v)).
  change (firstn 8 (skipn 16 (view_bytes_of v))) with (le64 (v_ptr v)).
  rewrite unle32_le32, !unle64_le64 by assumption. destruct v; reflexivity.
Qed.

Lemma jdata_fill_thm : forall vecs p m, acc m p (24 * Z.of_nat (length vecs)) ->
  exists m', jdata_fill p vecs m = (Ret tt, m') /\ changes (within p (24 * Z.of_nat (length vecs))) m m' /\ same_acc m m' /\
    forall i v, nth_error vecs i = Some v -> get_bytes m' (p + Z.of_nat i * 24) 24 = Some (view_bytes_of (vector_data v)).
Proof.
  induction vecs as [|v vecs IH]; intros p m Ha; cbn [jdata_fill].
  - exists m. split; [reflexivity|]. split; [apply changes_refl|]. split; [apply same_acc_refl|]. intros [|i] v H; discriminate.
  - cbn [length] in Ha. assert (A24 : acc m p (Z.of_nat 24)) by (eapply acc_sub; [exact Ha|lia|lia]).
    destruct (proj2 (get_bytes_acc 24 m p) A24) as [bs Hbs]. rewrite Hbs.
    set (bb := view_bytes_of (vector_data v)). set (m1 := put_bytes m p bb).
    assert (S1 : same_acc m m1) by (apply put_bytes_acc; exact A24).
    destruct (IH (p + 24) m1) as (m' & E & C & S & N).
    { eapply acc_same; [exact S1|]. eapply acc_sub; [exact Ha|lia|lia]. }
    exists m'. split; [exact E|]. split; [|split].
    + eapply changes_weaken; [eapply changes_trans; [apply put_bytes_changes|exact C]|].
      intros x [Hx|Hx]; unfold within in *; cbn [length]; [change (length bb) with 24%nat in Hx|]; lia.
    + eapply same_acc_trans; eauto.
    + intros [|i] v' Hv; cbn [nth_error] in Hv.
      * injection Hv as <-. rewrite Z.add_0_r. rewrite (changes_get _ _ _ _ _ C).
        -- change 24%nat with (length bb). apply get_bytes_put.
        -- intros x Hx Hx'. unfold within in *. lia.
      * replace (p + Z.of_nat (Datatypes.S i) * 24) with (p + 24 + Z.of_nat i * 24) by lia. apply N, Hv.
Qed.

(** What holds of the data made for a jagged vector, when the resource answers [p]. *)
Theorem jagged_get_data_thm : forall vecs p m, vecs <> [] -> 24 * Z.of_nat (length vecs) < 2 ^ 64 -> p <> 0 ->
  acc m p (24 * Z.of_nat (length vecs)) ->
  exists v u m', jagged_get_data vecs (Some p) m = (Ret (v, u), [EAlloc (24 * Z.of_nat (length vecs)) 16 (Some p)], m') /\
    v = mkJ (Z.of_nat (length vecs)) p p /\ changes (within p (24 * Z.of_nat (length vecs))) m m' /\
    jdata_destroy (v, u) = [EFree p (24 * Z.of_nat (length vecs)) 16] /\
    forall i n q, nth_error vecs i = Some (n, q) -> 0 <= q < 2 ^ 64 -> jdv_at v (Z.of_nat i) m' = Ret (mkV (n mod 2 ^ 32) 0 q).
Proof.
  intros vecs p m Hne Hlt Hp Ha. destruct (jdata_fill_thm vecs p m Ha) as (m' & E & C & S & N).
  assert (Hl : (0 < length vecs)%nat) by (destruct vecs; [congruence|cbn [length]; lia]).
  unfold jagged_get_data, jdata_new. destruct (length vecs) as [|k] eqn:El; [lia|].
  unfold make_unique_alloc, mr_alloc. unfold IntMath.wrap64, IntMath.two64.
  rewrite (Z.mod_small (Z.of_nat (Datatypes.S k) * 24)) by lia.
  destruct (Z.of_nat (Datatypes.S k) * 24 =? 0) eqn:E0; [lia|]. cbn [j_host u_ptr].
  rewrite E. do 3 eexists. split; [|split; [reflexivity|split; [exact C|split]]].
  - rewrite Z.mul_comm. unfold max_align. reflexivity.
  - unfold jdata_destroy, u_destroy. cbn [snd u_ptr u_dtor u_size u_align u_elems]. destruct (p =? 0) eqn:Ep; [lia|].
    cbn [app]. rewrite Z.mul_comm. reflexivity.
  - intros i n q Hi Hq. unfold jdv_at, assert. cbn [j_size j_ptr].
    assert (i < length vecs)%nat by (apply nth_error_Some; congruence).
    destruct (Z.of_nat i <? Z.of_nat (Datatypes.S k)) eqn:Ei; [|lia].
    rewrite (N i _ Hi). rewrite view_of_view_bytes; [reflexivity|..]; unfold vector_data, view_fixed; cbn [v_cap v_sizep v_ptr fst snd]; lia.
Qed.

Lemma jagged_get_data_empty : forall res m, jagged_get_data [] res m = (Ret (mkJ 0 0 0, u_null), [], m) /\ jdata_destroy (mkJ 0 0 0, u_null) = [].
Proof. split; reflexivity. Qed.

Lemma jagged_get_data_fail : forall vecs m, vecs <> [] -> 24 * Z.of_nat (length vecs) < 2 ^ 64 ->
  jagged_get_data vecs None m = (Throw bad_alloc, [EAlloc (24 * Z.of_nat (length vecs)) 16 None], m).
Proof.
  intros vecs m Hne Hlt. unfold jagged_get_data, jdata_new. destruct (length vecs) as [|k] eqn:El.
  - destruct vecs; [congruence|discriminate].
  - unfold make_unique_alloc, mr_alloc. unfold IntMath.wrap64, IntMath.two64.
    rewrite (Z.mod_small (Z.of_nat (Datatypes.S k) * 24)) by lia.
    destruct (Z.of_nat (Datatypes.S k) * 24 =? 0) eqn:E0; [lia|]. rewrite Z.mul_comm. unfold max_align. reflexivity.
Qed.

Lemma jdv_at_out : forall v i m, j_size v <= i -> jdv_at v i m = UB.
Proof. intros v i m H. unfold jdv_at, assert. destruct (i <? j_size v) eqn:E; [lia|reflexivity]. Qed.

Lemma vector_data_at : forall sz n p j m, 0 <= n < 2 ^ 32 -> 0 <= j ->
  dv_size (vector_data (n, p)) m = Ret n /\
  (j < n -> dv_at sz (vector_data (n, p)) j m = Ret (p + j * sz)) /\ (n <= j -> dv_at sz (vector_data (n, p)) j m = UB).
Proof.
  intros sz n p j m Hn Hj. unfold dv_at, dv_size, vector_data, view_fixed. cbn [v_sizep v_cap v_ptr fst snd Z.eqb bind].
  rewrite Z.mod_small by lia. unfold assert.
  split; [reflexivity|]. split; intro H; destruct (j <? n) eqn:E; auto; lia.
Qed.

(** Comparison. *)
Lemma view_eq_iff v w : view_eq v w = true <-> v = w.
Proof.
  unfold view_eq. destruct v as [a b c], w as [a' b' c']. cbn [v_cap v_sizep v_ptr]. split; intro H.
  - assert (a = a' /\ b = b' /\ c = c') as (-> & -> & ->) by lia. reflexivity.
  - injection H as -> -> ->. lia.
Qed.
Lemma jview_eq_iff v w : jview_eq v w = true <-> v = w.
Proof.
  unfold jview_eq. destruct v as [a b c], w as [a' b' c']. cbn [j_size j_ptr j_host]. split; intro H.
  - assert (a = a' /\ b = b' /\ c = c') as (-> & -> & ->) by lia. reflexivity.
  - injection H as -> -> ->. lia.
Qed.
