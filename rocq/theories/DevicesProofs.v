(** Proofs about the resources of the device libraries. *)
From Verif Require Import Base BaseLemmas Devices.

Section Proofs.
  Variable dev_ok : Z -> bool.
  Variable orc : nat -> option Z.

  Lemma with_device_spec {A} d (body : rt -> outcome A * rt) s r s' : dev_ok (rt_cur s) = true -> with_device dev_ok d body s = (r, s') ->
    rt_cur s' = rt_cur s /\
    ((dev_ok d = false /\ r = Throw runtime_error /\ s' = s) \/
     (dev_ok d = true /\ exists s1, body (mkRt d (rt_live s) (rt_n s)) = (r, s1) /\ rt_live s' = rt_live s1)).
  Proof.
    unfold with_device. intros H E. destruct (dev_ok d); cbn [negb] in E.
    - destruct (body _) as [r1 s1]. rewrite H in E. injection E as <- <-. cbn. split; [auto|]. right. eauto.
    - injection E as <- <-. auto.
  Qed.

  Definition kind_of (r : res) : mkind := match r with RDevice d => MDevice d | RHost => MPinned | RManaged => MManaged | RSycl k q => MSycl k q end.

  Theorem allocate_spec r bytes al s o s' : dev_ok (rt_cur s) = true -> res_allocate dev_ok orc r bytes al s = (o, s') ->
    rt_cur s' = rt_cur s /\
    match o with
    | Ret p => if bytes =? 0 then p = 0 /\ s' = s else orc (rt_n s) = Some p /\ rt_live s' = (p, kind_of r) :: rt_live s
    | Throw e => rt_live s' = rt_live s /\ e = match r with RSycl _ _ => bad_alloc | _ => runtime_error end
    | UB => False
    end.
  Proof.
    intros H E. unfold res_allocate in E. destruct (bytes =? 0) eqn:Eb; [injection E as <- <-; auto|].
    destruct r as [d| | |k q].
    - destruct (with_device_spec d _ s o s' H E) as (C & [(D & -> & ->)|(D & s1 & E1 & E2)]); [auto|]. split; [auto|].
      unfold rt_alloc in E1. cbn [rt_n rt_cur rt_live] in E1. destruct (orc (rt_n s)) as [p|]; injection E1 as <- <-; cbn in E2; rewrite ?Eb; auto.
    - unfold rt_alloc in E. destruct (orc (rt_n s)) as [p|]; injection E as <- <-; cbn; rewrite ?Eb; auto.
    - unfold rt_alloc in E. destruct (orc (rt_n s)) as [p|]; injection E as <- <-; cbn; rewrite ?Eb; auto.
    - unfold rt_alloc in E. destruct (orc (rt_n s)) as [p|]; injection E as <- <-; cbn; rewrite ?Eb; auto.
  Qed.

  Theorem equal_equiv a b c : res_equal a a = true /\ res_equal a b = res_equal b a /\ (res_equal a b = true -> res_equal b c = true -> res_equal a c = true).
  Proof.
    split; [destruct a; cbn; lia|]. split; [destruct a, b; cbn; lia|]. destruct a, b, c; cbn; try discriminate; try reflexivity; lia.
  Qed.

  Theorem deallocate_equal r r' p s o s' : p <> 0 -> dev_ok (rt_cur s) = true -> rt_kind (rt_live s) p = Some (kind_of r) ->
    (forall d, r = RDevice d -> dev_ok d = true) -> res_equal r r' = true -> res_deallocate dev_ok r' p s = (o, s') ->
    o = Ret tt /\ rt_cur s' = rt_cur s /\ rt_live s' = rt_erase (rt_live s) p.
  Proof.
    intros NP H K D EQ E. unfold res_deallocate in E. replace (p =? 0) with false in E by lia.
    destruct r as [d| | |k q], r' as [d'| | |k' q']; cbn in EQ; try discriminate; cbn [kind_of] in K.
    - apply Z.eqb_eq in EQ. subst d'. destruct (with_device_spec d _ s o s' H E) as (C & [(X & _)|(X & s1 & E1 & E2)]); [rewrite (D d eq_refl) in X; discriminate|].
      unfold rt_free in E1. cbn [rt_live rt_cur rt_n] in E1. rewrite K in E1. cbn [cuda_free] in E1. injection E1 as <- <-. cbn in E2. auto.
    - unfold rt_free in E. rewrite K in E. cbn in E. injection E as <- <-. auto.
    - unfold rt_free in E. rewrite K in E. cbn in E. injection E as <- <-. auto.
    - unfold rt_free in E. rewrite K in E. cbn [sycl_free] in E. rewrite EQ in E. injection E as <- <-. auto.
  Qed.

  (** Fall back for resources that throw std::bad_alloc. *)
  Definition is_sycl (r : res) : Prop := match r with RSycl _ _ => True | _ => False end.
  Theorem coalescing_sycl ups bytes al : bytes <> 0 -> Forall is_sycl ups -> forall s o s', coal_allocate dev_ok orc ups bytes al s = (o, s') ->
    match o with
    | Ret p => exists i r, nth_error ups i = Some r /\ (forall j, (j < i)%nat -> orc (rt_n s + j)%nat = None) /\ orc (rt_n s + i)%nat = Some p /\ rt_live s' = (p, kind_of r) :: rt_live s
    | Throw e => e = bad_alloc /\ (forall j, (j < length ups)%nat -> orc (rt_n s + j)%nat = None) /\ rt_live s' = rt_live s
    | UB => False
    end.
  Proof.
    intros NB F. induction F as [|r ups Hr F IH]; intros s o s' E; cbn [coal_allocate] in E.
    - injection E as <- <-. split; [auto|]. split; [|auto]. cbn. lia.
    - destruct r as [| | |k q]; try contradiction. unfold res_allocate in E. replace (bytes =? 0) with false in E by lia. cbn zeta in E.
      unfold rt_alloc in E. destruct (orc (rt_n s)) as [p|] eqn:Eo.
      + injection E as <- <-. exists 0%nat, (RSycl k q). split; [auto|]. split; [lia|]. rewrite Nat.add_0_r. auto.
      + apply IH in E. cbn [rt_n rt_live] in E. destruct o as [p|e|]; [|auto|auto].
        * destruct E as (i & r & E1 & E2 & E3 & E4). exists (S i), r. split; [auto|]. split; [|split; [rewrite <- plus_n_Sm; auto|auto]].
          intros [|j] Hj; [rewrite Nat.add_0_r; auto|]. rewrite <- plus_n_Sm. apply (E2 j). lia.
        * destruct E as (E1 & E2 & E3). split; [auto|]. split; [|auto]. intros [|j] Hj; [rewrite Nat.add_0_r; auto|]. rewrite <- plus_n_Sm. cbn in Hj. apply (E2 j). lia.
  Qed.
End Proofs.
