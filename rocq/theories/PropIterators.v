(** Properties C52, C53, C95, C96: reverse iterators, fixed-size arrays, jagged iterators. *)
From Verif Require Import Base BaseLemmas Iterators IteratorsProofs.

(** C52.  [flip l p] is the distance of base position [p] from the end of [l]. *)
Theorem C52_rbegin : forall (A : Type) (l : list A) i, 0 <= i -> i < Z.of_nat (length l) ->
  exists a, nth_error l (length l - 1 - Z.to_nat i) = Some a /\
    rev_op l (it_rbegin l) (IIndex i) = Ret (IRElem a, it_rbegin l) /\
    exists q, rev_op l (it_rbegin l) (IPlus i) = Ret (IRIter q, it_rbegin l) /\ rev_op l q IDeref = Ret (IRElem a, q).
Proof. exact @rbegin_thm. Qed.
Print Assumptions C52_rbegin.

Theorem C52_rend : forall (A : Type) (l : list A) k q,
  rev_op l (it_rbegin l) (IPlus k) = Ret (IRIter q, it_rbegin l) ->
  rev_op l q (IEq (it_rend l)) = Ret (IRBool (k =? Z.of_nat (length l)), q) /\
  rev_op l q (INe (it_rend l)) = Ret (IRBool (negb (k =? Z.of_nat (length l))), q).
Proof. exact @rend_thm. Qed.
Print Assumptions C52_rend.

Theorem C52_operators : forall (A : Type) (l : list A) p o, 0 <= p <= Z.of_nat (length l) ->
  flip_out l (rev_op l p o) = ptr_op (rev l) (flip l p) (flip_op l o).
Proof. exact @rev_is_ptr. Qed.
Print Assumptions C52_operators.

Theorem C52_sequences : forall (A : Type) (l : list A) os p, 0 <= p <= Z.of_nat (length l) ->
  match it_run (rev_op l) p os with
  | Ret (rs, q) => it_run (ptr_op (rev l)) (flip l p) (map (flip_op l) os) = Ret (map (flip_res l) rs, flip l q)
  | x => it_run (ptr_op (rev l)) (flip l p) (map (flip_op l) os) = match x with Throw e => Throw e | _ => UB end
  end.
Proof. exact @rev_run_is_ptr. Qed.
Print Assumptions C52_sequences.

Example C52_ex : it_run (rev_op [10; 20; 30]) (it_rbegin [10; 20; 30])
    [IDeref; IPostInc; IDeref; IIndex 1; IPlusEq 2; IEq (it_rend [10; 20; 30]); IMinusEq 1; IDeref; IPreDec; IMinus 1; IPlus 2] =
  Ret ([IRElem 30; IRIter 3; IRElem 20; IRElem 10; IRIter 0; IRBool true; IRIter 1; IRElem 10; IRIter 2; IRIter 3; IRIter 0], 2) /\
  rev_op [10; 20; 30] (it_rend [10; 20; 30]) IDeref = UB /\ rev_op [10; 20; 30] (it_rend [10; 20; 30]) IPreInc = UB /\
  rev_op [10; 20; 30] (it_rbegin [10; 20; 30]) IPreDec = UB.
Proof. repeat split. Qed.

(** C53. *)
Theorem C53_at : forall (A : Type) (l : list A) i a, 0 <= i ->
  let N := Z.of_nat (length l) in
  (i < N -> exists x, nth_error l (Z.to_nat i) = Some x /\ arr_at N l i = Ret x /\ dev_at N l i = Ret x /\
     exists l', arr_at_set N l i a = Ret l' /\ length l' = length l /\
       nth_error l' (Z.to_nat i) = Some a /\ forall j, j <> Z.to_nat i -> nth_error l' j = nth_error l j) /\
  (N <= i -> arr_at N l i = Throw out_of_range /\ arr_at_set N l i a = Throw out_of_range /\ dev_at N l i = UB).
Proof. exact @at_thm. Qed.
Print Assumptions C53_at.

Theorem C53_equal : forall (A : Type) (ne : A -> A -> bool) (l r : list A), length r = length l ->
  exists b, arr_eq ne (length l) l r = Ret b /\ arr_ne ne (length l) l r = Ret (negb b) /\
    (b = true <-> forall j x y, nth_error l j = Some x -> nth_error r j = Some y -> ne x y = false).
Proof. exact @eq_thm. Qed.
Print Assumptions C53_equal.

Theorem C53_fill : forall (A : Type) (a : A) (l : list A), arr_fill (length l) a l = Ret (repeat a (length l)).
Proof. exact @fill_thm. Qed.
Print Assumptions C53_fill.

Example C53_ex : arr_at 3 [1; 2; 3] 2 = Ret 3 /\ arr_at 3 [1; 2; 3] 3 = Throw out_of_range /\
  arr_at_set 3 [1; 2; 3] 1 9 = Ret [1; 9; 3] /\ arr_fill 3 7 [1; 2; 3] = Ret [7; 7; 7] /\
  arr_eq (fun x y => negb (x =? y)) 3 [1; 2; 3] [1; 2; 3] = Ret true /\
  arr_eq (fun x y => negb (x =? y)) 3 [1; 2; 3] [1; 2; 4] = Ret false /\
  arr_ne (fun x y => negb (x =? y)) 3 [1; 2; 3] [1; 2; 4] = Ret true.
Proof. repeat split. Qed.

(** C95: first and last element. *)
Theorem C95_front_back : forall (A : Type) (l : list A),
  let N := Z.of_nat (length l) in
  (l = [] -> array_front N l = Throw out_of_range /\ array_back N l = Throw out_of_range) /\
  (forall a l', l = a :: l' -> array_front N l = Ret a /\ static_front N l = Ret a) /\
  (forall a l', l = l' ++ [a] -> array_back N l = Ret a /\ static_back N l = Ret a).
Proof. exact @front_back_thm. Qed.
Print Assumptions C95_front_back.

Example C95_ex : array_front 3 [1; 2; 3] = Ret 1 /\ static_back 3 [1; 2; 3] = Ret 3 /\
  array_back 0 (@nil Z) = Throw out_of_range /\ [1; 2; 3] = [1; 2] ++ [3].
Proof. repeat split. Qed.

(** C96: jagged device vectors. *)
Theorem C96_iterator : forall (V D : Type) (mk : V -> D) l p o, jag_op mk l p o = ptr_op (map mk l) p o.
Proof. exact @jag_is_ptr. Qed.
Print Assumptions C96_iterator.

Theorem C96_access : forall (V D : Type) (mk : V -> D) l pos, 0 <= pos ->
  let n := Z.of_nat (length l) in
  (pos < n -> exists v, nth_error l (Z.to_nat pos) = Some v /\ jag_at mk l n pos = Ret (mk v) /\ jag_index mk l pos = Ret (mk v)) /\
  (n <= pos -> jag_at mk l n pos = UB) /\
  (forall v l', l = v :: l' -> jag_front mk l n = Ret (mk v)) /\
  (forall v l', l = l' ++ [v] -> jag_back mk l n = Ret (mk v)) /\
  (l = [] -> jag_front mk l n = UB /\ jag_back mk l n = UB).
Proof. exact @jag_access. Qed.
Print Assumptions C96_access.

Example C96_ex : it_run (jag_op (fun v => v * 2) [5; 6; 7]) 0 [IDeref; IPreInc; IDeref; IIndex 1; IPlusEq 2; IEq 3; IMinus 3] =
  Ret ([IRElem 10; IRIter 1; IRElem 12; IRElem 14; IRIter 3; IRBool true; IRIter 0], 3) /\
  jag_back (fun v => v * 2) [5; 6; 7] 3 = Ret 14 /\ jag_at (fun v => v * 2) [5; 6; 7] 3 3 = UB.
Proof. repeat split. Qed.
