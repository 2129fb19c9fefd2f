(** Copies from views of SoA containers into edm::host. *)
From Verif Require Import Base BaseLemmas Placement EdmBuffer Copy CopyProofs CopyJaggedProofs CopyJaggedTheorems EdmCopy EdmCopyViews CopyHost.

(** The sizes of the source, and the addresses of the elements of the target, by variable. *)
Definition job_hsize (j : job) : hsize :=
  match j with JScalar _ _ _ _ => HSScalar | JVector _ _ _ n _ => HSVector n | JJagged _ _ _ _ _ _ _ rows => HSJagged (map r_n rows) end.
Definition job_place (j : job) : hplace :=
  match j with
  | JScalar _ _ q _ => HPScalar q | JVector _ _ y _ _ => HPVector (Placement.v_ptr y)
  | JJagged _ _ y _ _ tl _ _ => HPJagged tl (map Placement.v_ptr y)
  end.
Definition job_kind (j : job) : vkind := match j with JScalar _ _ _ _ => KScalar | JVector _ _ _ _ _ => KVector | JJagged _ _ _ _ _ _ _ _ => KJagged end.
(** The target is a vector, or a vector of vectors, with the size of the source. *)
Definition hosted (j : job) : Prop :=
  match j with
  | JScalar _ _ _ _ => True
  | JVector _ _ y n _ => Placement.v_cap y = n /\ Placement.v_size y = 0
  | JJagged _ _ y _ _ tl th rows => tl = th /\ map Placement.v_cap y = map r_n rows /\ Forall (fun v => Placement.v_size v = 0) y
  end.
(** The number of elements of a variable that is no scalar. *)
Definition job_outer (j : job) : option Z :=
  match j with JScalar _ _ _ _ => None | JVector _ _ _ n _ => Some n | JJagged _ _ _ _ _ _ _ rows => Some (Z.of_nat (length rows)) end.
(** The size of a container without jagged vectors. *)
Definition source_size (k : cptype) (from : edm_view) (m : cmem) (n : Z) : Prop :=
  if m_ptr (ev_size from) =? 0 then ev_cap from = n
  else m_len (ev_size from) = 4 /\ get_bytes m (m_ptr (ev_size from)) 4 = Some (le32 n) /\ 0 <= n < 2 ^ 32 /\
       kind_check m k (m_dev m (m_ptr (ev_size from))) false = true.

Lemma resize_vars_ok k m jobs : Forall (job_ok k m) jobs -> resize_vars (map job_from jobs) m = (Ret (map job_hsize jobs), m).
Proof.
  induction 1 as [|j jobs (Hz & H) _ IH]; [reflexivity|]. cbn [map resize_vars].
  destruct j as [v p q data|v x y n data|v x y fl fh tl th rows]; cbn [job_from job_hsize].
  - cbn [cbind]. rewrite IH. reflexivity.
  - destruct H as (H & _). rewrite (get_size_ok _ _ _ H). cbn [cbind]. rewrite IH. reflexivity.
  - destruct H as (E & _ & _ & _ & H & _). rewrite E, (get_sizes_ok _ _ _ H). cbn [cbind]. rewrite IH. reflexivity.
Qed.

Lemma host_views_ok k m jobs : Forall (job_ok k m) jobs -> Forall hosted jobs ->
  host_views (map job_hsize jobs) (map job_place jobs) = map job_to jobs.
Proof.
  induction 1 as [|j jobs (Hz & H) _ IH]; intros F; [reflexivity|]. inversion F as [|? ? Fj F']; subst. cbn [map].
  destruct j as [v p q data|v x y n data|v x y fl fh tl th rows]; cbn [job_hsize job_place job_to host_views hosted] in *; rewrite IH by auto; f_equal.
  - destruct y as [c s q]. cbn in Fj |- *. destruct Fj as (-> & ->). destruct H as ((V & _) & H2 & H3 & _). cbn in H2, H3. f_equal. rewrite Z.mod_small by lia. reflexivity.
  - destruct Fj as (-> & E & Z0). destruct H as (_ & Ey & R & _). rewrite map_length.
    assert (L : length y = length rows) by (rewrite <- (map_length cv y), Ey, map_length; reflexivity).
    rewrite <- L. f_equal.
    assert (C : Forall (fun v => 0 <= Placement.v_cap v < 2 ^ 32) y).
    { assert (Q : Forall (fun t => 0 <= v_cap t < 2 ^ 32) (map cv y)).
      { rewrite Ey. apply Forall_forall. intros t Ht. apply in_map_iff in Ht. destruct Ht as (r & <- & Hr). rewrite Forall_forall in R.
        destruct (R r Hr) as (_ & (B & _) & _). exact B. }
      rewrite Forall_map in Q. exact Q. }
    rewrite <- E. clear - Z0 C. induction y as [|[c s q] y IH]; [reflexivity|]. inversion Z0; subst. inversion C; subst. cbn in *.
    rewrite IH by auto. rewrite Z.mod_small by lia. subst s. reflexivity.
Qed.

Lemma outer_sizes_in jobs n : In n (outer_sizes (map job_hsize jobs)) <-> exists j, In j jobs /\ job_outer j = Some n.
Proof.
  induction jobs as [|j jobs IH]; cbn [map outer_sizes].
  - split; [contradiction|]. intros (j & [] & _).
  - destruct j as [v p q data|v x y n' data|v x y fl fh tl th rows]; cbn [job_hsize outer_sizes In]; rewrite ?IH, ?map_length; split.
    + intros (j & I & E). exists j. auto.
    + intros (j & [<-|I] & E); [discriminate|eauto].
    + intros [<-|(j & I & E)]; [eexists; split; [left; reflexivity|reflexivity]|exists j; auto].
    + intros (j & [<-|I] & E); [left; injection E as <-; reflexivity|right; eauto].
    + intros [<-|(j & I & E)]; [eexists; split; [left; reflexivity|reflexivity]|exists j; auto].
    + intros (j & [<-|I] & E); [left; injection E as <-; reflexivity|right; eauto].
Qed.
Lemma host_size_ok jobs n : (exists j, In j jobs /\ job_outer j <> None) -> (forall j n', In j jobs -> job_outer j = Some n' -> n' = n) ->
  host_size (map job_hsize jobs) = Ret n.
Proof.
  intros (j0 & I0 & N0) H. unfold host_size. destruct (job_outer j0) as [n0|] eqn:E0; [|congruence].
  pose proof (proj2 (outer_sizes_in jobs n0) (ex_intro _ j0 (conj I0 E0))) as I1.
  assert (A : forall a, In a (outer_sizes (map job_hsize jobs)) -> a = n) by (intros a Ia; apply outer_sizes_in in Ia; destruct Ia as (j & I & E); apply (H j a I E)).
  destruct (outer_sizes (map job_hsize jobs)) as [|a l]; [contradiction|].
  assert (a = n) by (apply A; left; reflexivity). subst a.
  replace (forallb (Z.eqb n) l) with true; [reflexivity|]. symmetry. apply forallb_forall. intros b Ib. rewrite (A b) by (right; auto). apply Z.eqb_refl.
Qed.
Lemma host_size_throws jobs i j a b : In i jobs -> In j jobs -> job_outer i = Some a -> job_outer j = Some b -> a <> b ->
  host_size (map job_hsize jobs) = Throw length_error.
Proof.
  intros Ii Ij Ei Ej D. unfold host_size. pose proof (proj2 (outer_sizes_in jobs a) (ex_intro _ i (conj Ii Ei))) as A.
  pose proof (proj2 (outer_sizes_in jobs b) (ex_intro _ j (conj Ij Ej))) as B.
  destruct (outer_sizes (map job_hsize jobs)) as [|c l]; [contradiction|]. destruct (forallb (Z.eqb c) l) eqn:E; [|reflexivity].
  exfalso. rewrite forallb_forall in E. assert (H : forall x, In x (c :: l) -> x = c).
  { intros x [<-|Ix]; [reflexivity|]. symmetry. apply Z.eqb_eq. apply E. exact Ix. }
  rewrite (H a A), (H b B) in D. congruence.
Qed.

Lemma edm_resize_ok k from m jobs n : host_target k = true -> Forall (fun j => vk (job_var j) = job_kind j) jobs ->
  ev_vars from = map job_from jobs -> Forall (job_ok k m) jobs -> (forall j n', In j jobs -> job_outer j = Some n' -> n' = n) ->
  (existsb is_jagged (map job_var jobs) = false -> source_size k from m n) ->
  edm_resize (map job_var jobs) k from m = (Ret (map job_hsize jobs), m).
Proof.
  intros Hk Hv Ef F Hn Hs. unfold edm_resize. rewrite Hk. cbn [negb]. unfold jagged_schema. destruct (existsb is_jagged (map job_var jobs)) eqn:Ej.
  - rewrite Ef. apply (resize_vars_ok k). auto.
  - specialize (Hs eq_refl). assert (R : forall (r : cm Z), r = (Ret n, m) -> cbind r (fun n m => (Ret (map (fun v => match vk v with KScalar => HSScalar | _ => HSVector n end) (map job_var jobs)), m)) = (Ret (map job_hsize jobs), m)).
    { intros r ->. cbn [cbind]. f_equal. f_equal. clear - Hv Hn Ej. induction jobs as [|j jobs IH]; [reflexivity|]. inversion Hv as [|? ? Ek Hv']; subst.
      cbn [map existsb] in Ej |- *. apply Bool.orb_false_iff in Ej. destruct Ej as (Ea & Eb). rewrite IH; auto; [|intros j' n' I; apply Hn; right; auto]. f_equal.
      unfold is_jagged in Ea. rewrite Ek in Ea |- *. destruct j as [v p q data|v x y n' data|v x y fl fh tl th rows]; cbn [job_kind job_hsize] in *; [reflexivity| |discriminate].
      rewrite (Hn _ n' (or_introl eq_refl) eq_refl). reflexivity. }
    apply R. unfold source_size in Hs. destruct (m_ptr (ev_size from) =? 0) eqn:Ep; [rewrite Hs; reflexivity|].
    destruct Hs as (L & B & N & K). rewrite L. cbn [Z.eqb negb Pos.eqb]. unfold do_copy_out. rewrite Ep. change (Z.to_nat 4) with 4%nat. rewrite B, K. cbn [cbind].
    rewrite unle32_le32 by auto. reflexivity.
Qed.

Theorem edm_to_host_thm k from m jobs n : host_target k = true -> Forall (fun j => vk (job_var j) = job_kind j) jobs ->
  ev_vars from = map job_from jobs -> Forall (job_ok k m) jobs -> ForallOrdPairs in_order jobs -> Forall hosted jobs ->
  (exists j, In j jobs /\ job_outer j <> None) -> (forall j n', In j jobs -> job_outer j = Some n' -> n' = n) ->
  (existsb is_jagged (map job_var jobs) = false -> source_size k from m n) ->
  exists m', edm_to_host (map job_var jobs) k from (map job_place jobs) m = (Ret (map job_hsize jobs), m') /\
    Forall (job_done m') jobs /\ changes (fun a => exists j, In j jobs /\ job_writes j a) m m'.
Proof.
  intros Hk Hv Ef F O Hh Hne Hn Hs. unfold edm_to_host. rewrite (edm_resize_ok k from m jobs n) by auto. cbn [cbind].
  rewrite (host_size_ok jobs n) by auto. rewrite (host_views_ok k m) by auto.
  destruct (edm_copy_views k from (mkEV (n mod 2 ^ 32) (mkMem 0 0) (mkMem 0 0) (map job_to jobs)) m jobs) as (m' & G & C & D); auto.
  { right. left. reflexivity. }
  rewrite G. cbn [cbind]. exists m'. auto.
Qed.

(** Copy types with a device as their target. *)
Theorem edm_to_host_device vars k from ps m : k = host_to_device \/ k = device_to_device -> edm_to_host vars k from ps m = (UB, m).
Proof. intros [->| ->]; reflexivity. Qed.
(** Sources whose variables have different sizes. *)
Theorem edm_to_host_differ k from ps m jobs i j a b : host_target k = true ->
  ev_vars from = map job_from jobs -> Forall (job_ok k m) jobs -> existsb is_jagged (map job_var jobs) = true ->
  In i jobs -> In j jobs -> job_outer i = Some a -> job_outer j = Some b -> a <> b ->
  edm_to_host (map job_var jobs) k from ps m = (Throw length_error, m).
Proof.
  intros Hk Ef F Hj Ii Ij Ei Ej D. unfold edm_to_host, edm_resize, jagged_schema. rewrite Hk, Hj, Ef. cbn [negb].
  rewrite (resize_vars_ok k) by auto. cbn [cbind]. rewrite (host_size_throws jobs i j a b) by auto. reflexivity.
Qed.
