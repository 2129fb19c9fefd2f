(** Proofs about Iterators.v. *)
From Verif Require Import Iterators BaseLemmas.

Section Proofs.
  Context {A : Type}.
  Implicit Types (l : list A).

  (** The position of a reverse iterator counted from the last element. *)
  Definition flip l (p : Z) : Z := Z.of_nat (length l) - p.
  Definition flip_op l (o : iop) : iop :=
    match o with IEq q => IEq (flip l q) | INe q => INe (flip l q) | _ => o end.
  Definition flip_res l (r : ires A) : ires A := match r with IRIter q => IRIter (flip l q) | _ => r end.
  Definition flip_out l (x : outcome (ires A * Z)) : outcome (ires A * Z) :=
    match x with Ret (r, p) => Ret (flip_res l r, flip l p) | Throw e => Throw e | UB => UB end.

  Lemma ptr_add_flip l p k :
    ptr_add (rev l) (flip l p) k = match ptr_add l p (- k) with Ret q => Ret (flip l q) | Throw e => Throw e | UB => UB end.
  Proof.
    unfold ptr_add, flip. rewrite rev_length.
    destruct ((0 <=? p + - k) && (p + - k <=? Z.of_nat (length l))) eqn:E.
    - apply andb_true_iff in E. rewrite !Z.leb_le in E.
      replace ((0 <=? Z.of_nat (length l) - p + k) && (Z.of_nat (length l) - p + k <=? Z.of_nat (length l))) with true
        by (symmetry; apply andb_true_iff; rewrite !Z.leb_le; lia). f_equal. lia.
    - apply andb_false_iff in E. rewrite !Z.leb_gt in E.
      replace ((0 <=? Z.of_nat (length l) - p + k) && (Z.of_nat (length l) - p + k <=? Z.of_nat (length l))) with false
        by (symmetry; apply andb_false_iff; rewrite !Z.leb_gt; lia). auto.
  Qed.

  Lemma ptr_read_in l p : 0 <= p < Z.of_nat (length l) ->
    exists a, nth_error l (Z.to_nat p) = Some a /\ ptr_read l p = Ret a.
  Proof.
    intros H. unfold ptr_read. replace (0 <=? p) with true by (symmetry; apply Z.leb_le; lia).
    destruct (nth_error l (Z.to_nat p)) as [a|] eqn:E; [eauto|]. apply nth_error_None in E. lia.
  Qed.
  Lemma ptr_read_out l p : ~ (0 <= p < Z.of_nat (length l)) -> ptr_read l p = UB.
  Proof.
    intros H. unfold ptr_read. destruct (Z.leb_spec 0 p); [|auto].
    rewrite (proj2 (nth_error_None _ _)) by lia. auto.
  Qed.

  Lemma nth_error_rev l i : (i < length l)%nat -> nth_error (rev l) i = nth_error l (length l - 1 - i).
  Proof.
    intros H. destruct l as [|d0 l0] eqn:El; [cbn in H; lia|]. rewrite <- El in *. 
    rewrite (nth_error_nth' (rev l) d0) by (rewrite rev_length; auto).
    rewrite (nth_error_nth' l d0) by lia. rewrite rev_nth by auto. f_equal. f_equal. lia.
  Qed.

  Lemma read_flip l p : 0 <= p <= Z.of_nat (length l) -> ptr_read (rev l) (flip l p) = rev_deref l p.
  Proof.
    intros H. unfold rev_deref, ptr_add, flip.
    destruct (Z.eq_dec p 0) as [->|Ne].
    - cbn [Z.add Z.leb andb]. change (0 <=? -1) with false. cbn [andb bind].
      apply ptr_read_out. rewrite rev_length. lia.
    - replace ((0 <=? p + -1) && (p + -1 <=? Z.of_nat (length l))) with true
        by (symmetry; apply andb_true_iff; rewrite !Z.leb_le; lia). cbn [bind].
      unfold ptr_read. replace (0 <=? Z.of_nat (length l) - p) with true by (symmetry; apply Z.leb_le; lia).
      replace (0 <=? p + -1) with true by (symmetry; apply Z.leb_le; lia).
      rewrite nth_error_rev by lia.
      replace (length l - 1 - Z.to_nat (Z.of_nat (length l) - p))%nat with (Z.to_nat (p + -1)) by lia. auto.
  Qed.

  Lemma ptr_add_range l p k q : ptr_add l p k = Ret q -> 0 <= q <= Z.of_nat (length l).
  Proof.
    unfold ptr_add. destruct ((0 <=? p + k) && (p + k <=? Z.of_nat (length l))) eqn:E; [|discriminate].
    apply andb_true_iff in E. rewrite !Z.leb_le in E. intros H. injection H as <-. lia.
  Qed.

  (** A reverse iterator over [l] is a pointer into [rev l]. *)
  Theorem rev_is_ptr l p o : 0 <= p <= Z.of_nat (length l) ->
    flip_out l (rev_op l p o) = ptr_op (rev l) (flip l p) (flip_op l o).
  Proof.
    intros Hp.
    assert (Add : forall k, ptr_add (rev l) (flip l p) k = match ptr_add l p (- k) with Ret q => Ret (flip l q) | Throw e => Throw e | UB => UB end)
      by (intros k; apply ptr_add_flip).
    assert (Add1 : forall k, ptr_add (rev l) (flip l p) (- k) = match ptr_add l p k with Ret q => Ret (flip l q) | Throw e => Throw e | UB => UB end)
      by (intros k; rewrite Add, Z.opp_involutive; auto).
    destruct o as [|n| | | | |n|n|n|n|q|q]; cbn [flip_op ptr_op rev_op].
    - rewrite read_flip by auto. destruct (rev_deref l p); reflexivity.
    - rewrite Add. destruct (ptr_add l p (- n)) as [q|e|] eqn:E; cbn [bind]; try reflexivity.
      rewrite read_flip by (eapply ptr_add_range; eauto). destruct (rev_deref l q); reflexivity.
    - rewrite Add. change (- (1)) with (-1). destruct (ptr_add l p (-1)); reflexivity.
    - rewrite Add. change (- (1)) with (-1). destruct (ptr_add l p (-1)); reflexivity.
    - rewrite Add. change (- (-1)) with 1. destruct (ptr_add l p 1); reflexivity.
    - rewrite Add. change (- (-1)) with 1. destruct (ptr_add l p 1); reflexivity.
    - rewrite Add. destruct (ptr_add l p (- n)); reflexivity.
    - rewrite Add1. destruct (ptr_add l p n); reflexivity.
    - rewrite Add. destruct (ptr_add l p (- n)); reflexivity.
    - rewrite Add1. destruct (ptr_add l p n); reflexivity.
    - cbn [flip_out flip_res]. do 3 f_equal. unfold flip. destruct (Z.eqb_spec p q), (Z.eqb_spec (Z.of_nat (length l) - p) (Z.of_nat (length l) - q)); auto; lia.
    - cbn [flip_out flip_res]. do 4 f_equal. unfold flip. destruct (Z.eqb_spec p q), (Z.eqb_spec (Z.of_nat (length l) - p) (Z.of_nat (length l) - q)); auto; lia.
  Qed.

  Lemma rev_op_range l p o r q : 0 <= p <= Z.of_nat (length l) -> rev_op l p o = Ret (r, q) -> 0 <= q <= Z.of_nat (length l).
  Proof.
    intros Hp H.
    destruct o; cbn [rev_op] in H;
      repeat match type of H with
             | (let* x := ?e in _) = _ => let E := fresh "E" in destruct e eqn:E; cbn [bind] in H; try discriminate
             end; injection H as <- <-; try exact Hp;
      match goal with E : ptr_add _ _ _ = Ret _ |- _ => exact (ptr_add_range _ _ _ _ E) end.
  Qed.

  Theorem rev_run_is_ptr l os : forall p, 0 <= p <= Z.of_nat (length l) ->
    match it_run (rev_op l) p os with
    | Ret (rs, q) => it_run (ptr_op (rev l)) (flip l p) (map (flip_op l) os) = Ret (map (flip_res l) rs, flip l q)
    | x => it_run (ptr_op (rev l)) (flip l p) (map (flip_op l) os) = match x with Throw e => Throw e | _ => UB end
    end.
  Proof.
    induction os as [|o os IH]; intros p Hp; [reflexivity|]. cbn [it_run map].
    rewrite <- (rev_is_ptr l p o Hp).
    destruct (rev_op l p o) as [[r q]|e|] eqn:E; cbn [bind flip_out fst snd]; try reflexivity.
    specialize (IH q (rev_op_range l p o r q Hp E)).
    destruct (it_run (rev_op l) q os) as [[rs q']|e|]; cbn [bind fst snd] in *; rewrite IH; reflexivity.
  Qed.

  (** Reading through rbegin(). *)
  Theorem rbegin_thm l i : 0 <= i -> i < Z.of_nat (length l) ->
    exists a, nth_error l (length l - 1 - Z.to_nat i) = Some a /\
      rev_op l (it_rbegin l) (IIndex i) = Ret (IRElem a, it_rbegin l) /\
      exists q, rev_op l (it_rbegin l) (IPlus i) = Ret (IRIter q, it_rbegin l) /\ rev_op l q IDeref = Ret (IRElem a, q).
  Proof.
    intros H1 H2. unfold it_rbegin, it_end.
    destruct (ptr_read_in l (Z.of_nat (length l) - i - 1) ltac:(lia)) as (a & Ea & Er).
    exists a. replace (length l - 1 - Z.to_nat i)%nat with (Z.to_nat (Z.of_nat (length l) - i - 1)) by lia. split; [auto|].
    assert (E1 : ptr_add l (Z.of_nat (length l)) (- i) = Ret (Z.of_nat (length l) - i)).
    { unfold ptr_add. replace ((0 <=? Z.of_nat (length l) + - i) && (Z.of_nat (length l) + - i <=? Z.of_nat (length l))) with true
        by (symmetry; apply andb_true_iff; rewrite !Z.leb_le; lia). f_equal. }
    assert (E2 : rev_deref l (Z.of_nat (length l) - i) = Ret a).
    { unfold rev_deref, ptr_add. replace ((0 <=? Z.of_nat (length l) - i + -1) && (Z.of_nat (length l) - i + -1 <=? Z.of_nat (length l))) with true
        by (symmetry; apply andb_true_iff; rewrite !Z.leb_le; lia). cbn [bind]. rewrite <- Er. f_equal. }
    cbn [rev_op]. rewrite E1. cbn [bind]. rewrite E2. cbn [bind]. split; [auto|].
    exists (Z.of_nat (length l) - i). split; [auto|]. cbn [rev_op]. rewrite E2. reflexivity.
  Qed.

  (** rbegin() + k is rend() for k = n only. *)
  Theorem rend_thm l k q :
    rev_op l (it_rbegin l) (IPlus k) = Ret (IRIter q, it_rbegin l) ->
    (rev_op l q (IEq (it_rend l)) = Ret (IRBool (k =? Z.of_nat (length l)), q)) /\
    (rev_op l q (INe (it_rend l)) = Ret (IRBool (negb (k =? Z.of_nat (length l))), q)).
  Proof.
    cbn [rev_op]. unfold it_rbegin, it_end, it_rend, it_begin, ptr_add.
    destruct ((0 <=? Z.of_nat (length l) + - k) && (Z.of_nat (length l) + - k <=? Z.of_nat (length l))); cbn [bind]; [|discriminate].
    intros H. injection H as <-.
    assert (E : (Z.of_nat (length l) + - k =? 0) = (k =? Z.of_nat (length l))).
    { destruct (Z.eqb_spec (Z.of_nat (length l) + - k) 0), (Z.eqb_spec k (Z.of_nat (length l))); auto; lia. }
    rewrite E. auto.
  Qed.

  (** ** Arrays *)
  Theorem at_thm l (i : Z) (a : A) : 0 <= i ->
    let N := Z.of_nat (length l) in
    (i < N -> exists x, nth_error l (Z.to_nat i) = Some x /\ arr_at N l i = Ret x /\ dev_at N l i = Ret x /\
       exists l', arr_at_set N l i a = Ret l' /\ length l' = length l /\
         nth_error l' (Z.to_nat i) = Some a /\ forall j, j <> Z.to_nat i -> nth_error l' j = nth_error l j) /\
    (N <= i -> arr_at N l i = Throw out_of_range /\ arr_at_set N l i a = Throw out_of_range /\ dev_at N l i = UB).
  Proof.
    intros Hi N. split; intros H.
    - destruct (ptr_read_in l i ltac:(lia)) as (x & Ex & Er). exists x. split; [auto|].
      unfold arr_at, arr_at_set, dev_at, arr_get, arr_set, assert.
      replace (i >=? N) with false by (symmetry; rewrite Z.geb_leb; apply Z.leb_gt; auto).
      replace (i <? N) with true by (symmetry; apply Z.ltb_lt; auto).
      split; [auto|]. split; [auto|]. fold N.
      replace ((0 <=? i) && (i <? N)) with true by (symmetry; apply andb_true_iff; rewrite Z.leb_le, Z.ltb_lt; lia).
      exists (upd l (Z.to_nat i) a). split; [auto|]. split; [apply upd_length|].
      split; [apply nth_error_upd_eq; subst N; lia|]. intros j Hj. apply nth_error_upd_ne; auto.
    - unfold arr_at, arr_at_set, dev_at, assert.
      replace (i >=? N) with true by (symmetry; rewrite Z.geb_leb; apply Z.leb_le; auto).
      replace (i <? N) with false by (symmetry; apply Z.ltb_ge; auto). auto.
  Qed.

  Lemma fill_gen a k : forall i l, (i + k = length l)%nat -> 
    fill_loop k (Z.of_nat i) a l = Ret (firstn i l ++ repeat a k).
  Proof.
    induction k as [|k IH]; intros i l E; cbn [fill_loop repeat].
    - rewrite app_nil_r, firstn_all2 by lia. auto.
    - unfold arr_set. replace ((0 <=? Z.of_nat i) && (Z.of_nat i <? Z.of_nat (length l))) with true
        by (symmetry; apply andb_true_iff; rewrite Z.leb_le, Z.ltb_lt; lia). cbn [bind].
      rewrite Nat2Z.id. replace (Z.of_nat i + 1) with (Z.of_nat (S i)) by lia.
      rewrite IH by (rewrite upd_length; lia). f_equal.
      assert (F : firstn (S i) (upd l i a) = firstn i l ++ [a]).
      { clear IH. assert (Hi : (i < length l)%nat) by lia. clear E. revert i Hi. induction l as [|b l IHl]; intros [|i] Hi; cbn [length] in Hi; try lia.
        - reflexivity.
        - cbn [upd firstn app]. f_equal. change (firstn (S i) (upd l i a) = firstn i l ++ [a]). apply IHl. lia. }
      rewrite F, <- app_assoc. auto.
  Qed.
  Theorem fill_thm a l : arr_fill (length l) a l = Ret (repeat a (length l)).
  Proof. unfold arr_fill. change 0 with (Z.of_nat 0). rewrite fill_gen; auto. Qed.

  Lemma eq_gen (ne : A -> A -> bool) k : forall i l r, (i + k = length l)%nat -> length r = length l ->
    exists b, eq_loop ne k (Z.of_nat i) l r = Ret b /\ ne_loop ne k (Z.of_nat i) l r = Ret (negb b) /\
      (b = true <-> forall j x y, (i <= j)%nat -> nth_error l j = Some x -> nth_error r j = Some y -> ne x y = false).
  Proof.
    induction k as [|k IH]; intros i l r E Er; cbn [eq_loop ne_loop].
    - exists true. split; [auto|]. split; [auto|]. split; [|auto]. intros _ j x y Hj Hx. apply nth_error_lt in Hx. lia.
    - unfold arr_get. destruct (ptr_read_in l (Z.of_nat i) ltac:(lia)) as (x & Ex & ->).
      destruct (ptr_read_in r (Z.of_nat i) ltac:(lia)) as (y & Ey & ->). cbn [bind]. rewrite Nat2Z.id in *.
      destruct (ne x y) eqn:En.
      + exists false. split; [auto|]. split; [auto|]. split; [discriminate|]. intros H. rewrite (H i x y) in En by auto. discriminate.
      + replace (Z.of_nat i + 1) with (Z.of_nat (S i)) by lia.
        destruct (IH (S i) l r ltac:(lia) Er) as (b & E1 & E2 & Hb). exists b. split; [auto|]. split; [auto|].
        rewrite Hb. split; intros H j u v Hj Hu Hv.
        * destruct (Nat.eq_dec j i) as [->|Ne]; [congruence|]. apply (H j u v); [lia|auto|auto].
        * apply (H j u v); [lia|auto|auto].
  Qed.
  Theorem eq_thm (ne : A -> A -> bool) l r : length r = length l ->
    exists b, arr_eq ne (length l) l r = Ret b /\ arr_ne ne (length l) l r = Ret (negb b) /\
      (b = true <-> forall j x y, nth_error l j = Some x -> nth_error r j = Some y -> ne x y = false).
  Proof.
    intros E. destruct (eq_gen ne (length l) 0 l r ltac:(lia) E) as (b & H1 & H2 & H3). exists b.
    split; [exact H1|]. split; [exact H2|]. rewrite H3. split; intros H j x y; [apply H; lia|intros _; apply H].
  Qed.

  (** front and back. *)
  Theorem front_back_thm l :
    let N := Z.of_nat (length l) in
    (l = [] -> array_front N l = Throw out_of_range /\ array_back N l = Throw out_of_range) /\
    (forall a l', l = a :: l' -> array_front N l = Ret a /\ static_front N l = Ret a) /\
    (forall a l', l = l' ++ [a] -> array_back N l = Ret a /\ static_back N l = Ret a).
  Proof.
    intros N. unfold array_front, array_back, static_front, static_back, arr_get, N. split; [intros ->; auto|]. split.
    - intros a l' ->. replace (Z.of_nat (length (a :: l')) =? 0) with false by (symmetry; apply Z.eqb_neq; cbn [length]; lia). auto.
    - intros a l' ->. rewrite app_length. cbn [length].
      replace (Z.of_nat (length l' + 1) =? 0) with false by (symmetry; apply Z.eqb_neq; lia).
      assert (E : ptr_read (l' ++ [a]) (Z.of_nat (length l' + 1) - 1) = Ret a).
      { replace (Z.of_nat (length l' + 1) - 1) with (Z.of_nat (length l')) by lia. unfold ptr_read.
        replace (0 <=? Z.of_nat (length l')) with true by (symmetry; apply Z.leb_le; lia).
        rewrite Nat2Z.id, nth_error_app2, Nat.sub_diag by lia. auto. }
      auto.
  Qed.
End Proofs.

(** The jagged iterator is a pointer into the array of inner vectors. *)
Theorem jag_is_ptr {V D} (mk : V -> D) l p o : jag_op mk l p o = ptr_op (map mk l) p o.
Proof.
  assert (R : forall q, ptr_read (map mk l) q = let* v := ptr_read l q in Ret (mk v)).
  { intros q. unfold ptr_read. destruct (0 <=? q); [|auto]. rewrite nth_error_map. destruct (nth_error l (Z.to_nat q)); reflexivity. }
  assert (P : forall q k, ptr_add (map mk l) q k = ptr_add l q k) by (intros; unfold ptr_add; now rewrite map_length).
  destruct o; cbn [jag_op ptr_op]; rewrite ?P, ?R; auto.
  - destruct (ptr_read l p); reflexivity.
  - destruct (ptr_add l p n); cbn [bind]; auto. rewrite R. destruct (ptr_read l a); reflexivity.
Qed.

Theorem jag_access {V D} (mk : V -> D) l pos : 0 <= pos ->
  let n := Z.of_nat (length l) in
  (pos < n -> exists v, nth_error l (Z.to_nat pos) = Some v /\ jag_at mk l n pos = Ret (mk v) /\ jag_index mk l pos = Ret (mk v)) /\
  (n <= pos -> jag_at mk l n pos = UB) /\
  (forall v l', l = v :: l' -> jag_front mk l n = Ret (mk v)) /\
  (forall v l', l = l' ++ [v] -> jag_back mk l n = Ret (mk v)) /\
  (l = [] -> jag_front mk l n = UB /\ jag_back mk l n = UB).
Proof.
  intros Hp n. unfold jag_at, jag_index, jag_front, jag_back, assert, n. repeat split.
  - intros H. destruct (ptr_read_in l pos ltac:(lia)) as (v & E & Er). exists v. rewrite Er. split; [auto|].
    replace (pos <? Z.of_nat (length l)) with true by (symmetry; apply Z.ltb_lt; auto). auto.
  - intros H. replace (pos <? Z.of_nat (length l)) with false by (symmetry; apply Z.ltb_ge; auto). auto.
  - intros v l' ->. reflexivity.
  - intros v l' ->. rewrite app_length. cbn [length].
    replace (Z.of_nat (length l' + 1) >? 0) with true by (symmetry; rewrite Z.gtb_ltb; apply Z.ltb_lt; lia).
    replace (Z.of_nat (length l' + 1) - 1) with (Z.of_nat (length l')) by lia. unfold ptr_read.
    replace (0 <=? Z.of_nat (length l')) with true by (symmetry; apply Z.leb_le; lia).
    rewrite Nat2Z.id, nth_error_app2, Nat.sub_diag by lia. auto.
  - subst. reflexivity.
  - subst. reflexivity.
Qed.
