(** Proofs about the proxies of SoA containers. *)
From Verif Require Export ProxyTypes.
From Coq Require Import List Bool Arith Lia.
Import ListNotations.

Definition held_of (dev cc : bool) (x : variable) (v i : nat) : option expr := var_make dev cc x i (container_get dev cc x v).

Lemma make_nth dev cc xs : forall v i tup, make_impl dev cc cc xs v i = Some tup ->
  forall k x, nth_error xs k = Some x -> exists h, held_of dev cc x (v + k) i = Some h /\ nth_error tup k = Some h.
Proof.
  induction xs as [|y xs IH]; intros v i tup H k x Hk; [destruct k; discriminate|]. cbn in H.
  destruct (var_make dev cc y i (container_get dev cc y v)) as [h|] eqn:E; [|discriminate]. cbn in H.
  destruct (make_impl dev cc cc xs (S v) i) as [tl|] eqn:F; [|discriminate]. cbn in H. injection H as <-.
  destruct k as [|k]; cbn in Hk |- *.
  - injection Hk as ->. exists h. rewrite Nat.add_0_r. auto.
  - destruct (IH _ _ _ F k x Hk) as (h' & A & B). exists h'. rewrite <- plus_n_Sm. auto.
Qed.
Lemma make_some dev cc xs : forall v i, (forall y k, In y xs -> held_of dev cc y k i <> None) -> exists tup, make_impl dev cc cc xs v i = Some tup.
Proof.
  induction xs as [|y xs IH]; intros v i H; cbn; [eauto|]. fold (held_of dev cc y v i).
  destruct (held_of dev cc y v i) as [h|] eqn:E; [|exfalso; eapply H; [left; reflexivity|exact E]]. cbn.
  destruct (IH (S v) i) as (tl & F); [intros; apply H; right; auto|]. rewrite F. cbn. eauto.
Qed.
Lemma make_none dev cc xs : forall v i y, In y xs -> (forall k, held_of dev cc y k i = None) -> make_impl dev cc cc xs v i = None.
Proof.
  induction xs as [|x xs IH]; intros v i y I H; [destruct I|]. cbn. fold (held_of dev cc x v i).
  destruct I as [->|I]; [rewrite H; reflexivity|]. destruct (held_of dev cc x v i); cbn; [|reflexivity]. rewrite (IH (S v) i y I H). reflexivity.
Qed.

Lemma access_thm dev cc gc xs v i x : nth_error xs v = Some x -> (dev = false -> forall y, In y xs -> v_const y = false) ->
  (dev = true -> cc = true -> forall y, In y xs -> v_kind y = KJagged -> v_const y = true) ->
  (dev = true -> gc = true -> v_kind x = KJagged -> v_const x = true) ->
  access dev cc gc xs v i =
    Some match v_kind x with
    | KScalar => mkExpr CElement (v_const x || cc || gc) (PVariable v)
    | KVector => mkExpr CElement (v_const x || cc || gc) (PElement v i)
    | KJagged => mkExpr (if dev then CDevice (v_const x) else CVector) (cc || gc) (PInner v i)
    end.
Proof.
  intros Hx HH HC HG. unfold access, make_proxy.
  assert (S : forall y k, In y xs -> held_of dev cc y k i <> None).
  { intros y k Hy. specialize (HH) as H1. specialize (HC) as H2. destruct y as [[| |] yc], dev, cc, yc; cbn; try discriminate;
      try (specialize (H1 eq_refl _ Hy); discriminate); specialize (H2 eq_refl eq_refl _ Hy eq_refl); discriminate. }
  destruct (make_some dev cc xs 0 i S) as (tup & M). rewrite M. cbn [obind]. rewrite Hx. cbn [obind].
  destruct (make_nth dev cc xs 0 i tup M v x Hx) as (h & H1 & H2). rewrite H2. cbn [obind]. cbn [plus] in H1.
  assert (Hin : In x xs) by (eapply nth_error_In; exact Hx). specialize (fun E => HH E x Hin). specialize (fun E1 E2 => HC E1 E2 x Hin).
  destruct x as [[| |] xc], dev, cc, gc, xc; cbn in H1; try discriminate; try (injection H1 as <-; reflexivity);
    try (specialize (HH eq_refl); discriminate); try (specialize (HC eq_refl eq_refl eq_refl); discriminate); specialize (HG eq_refl eq_refl eq_refl); discriminate.
Qed.

Lemma access_none cc gc xs v i x : nth_error xs v = Some x ->
  (cc = true /\ (exists y, In y xs /\ v_kind y = KJagged /\ v_const y = false)) \/ (gc = true /\ v_kind x = KJagged /\ v_const x = false) ->
  access true cc gc xs v i = None.
Proof.
  intros Hx [(-> & y & Hy & K & C)|(-> & K & C)]; unfold access, make_proxy.
  - rewrite (make_none true true xs 0 i y Hy); [reflexivity|]. intros k. destruct y as [yk yc]. cbn in K, C. subst. reflexivity.
  - destruct (make_impl true cc cc xs 0 i) as [tup|] eqn:M; [|reflexivity]. cbn [obind]. rewrite Hx. cbn [obind].
    destruct (make_nth true cc xs 0 i tup M v x Hx) as (h & H1 & H2). rewrite H2. cbn [obind]. cbn [plus] in H1.
    destruct x as [xk xc]. cbn in K, C. subst. destruct cc; cbn in H1; [discriminate|]. injection H1 as <-. reflexivity.
Qed.

Lemma variable_thm : forall dev cc x v i,
  let e := container_get dev cc x v in
  e_place e = PVariable v /\
  match v_kind x with
  | KScalar => e = mkExpr CElement (v_const x || cc) (PVariable v)
  | KVector => at_index e i = Some (mkExpr CElement (dev && v_const x || cc) (PElement v i))
  | KJagged => at_index e i = Some (if dev then mkExpr (CDevice (v_const x || cc)) false (PInner v i) else mkExpr CVector cc (PInner v i))
  end.
Proof. intros [|] [|] [[| |] [|]] v i; cbn; repeat split. Qed.
