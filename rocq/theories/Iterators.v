(** Iterators and fixed-size arrays.

    Sources (core/include/vecmem/containers): impl/reverse_iterator.ipp,
    impl/jagged_device_vector_iterator.ipp, impl/jagged_device_vector.ipp,
    impl/static_array.ipp, impl/array.ipp, impl/device_array.ipp.

    A pointer into an array of [n] elements is a position; it may be anything from 0 to
    [n]; leaving that range, or reading at [n], is undefined. *)
From Verif Require Export Base.

Section Iter.
  Context {A : Type}.

  (** Pointer arithmetic and access on the array [l]. *)
  Definition ptr_add (l : list A) (p k : Z) : outcome Z :=
    if (0 <=? p + k) && (p + k <=? Z.of_nat (length l)) then Ret (p + k) else UB.
  Definition ptr_read (l : list A) (p : Z) : outcome A :=
    if 0 <=? p then match nth_error l (Z.to_nat p) with Some a => Ret a | None => UB end else UB.

  (** The operators of an iterator. *)
  Inductive iop := IDeref | IIndex (n : Z) | IPreInc | IPostInc | IPreDec | IPostDec
    | IPlus (n : Z) | IMinus (n : Z) | IPlusEq (n : Z) | IMinusEq (n : Z) | IEq (q : Z) | INe (q : Z).
  (** The result of an operator: an element, an iterator, a truth value. *)
  Inductive ires := IRElem (a : A) | IRIter (p : Z) | IRBool (b : bool).

  (** A plain pointer: result and new position of the iterator. *)
  Definition ptr_op (l : list A) (p : Z) (o : iop) : outcome (ires * Z) :=
    match o with
    | IDeref => let* a := ptr_read l p in Ret (IRElem a, p)
    | IIndex n => let* q := ptr_add l p n in let* a := ptr_read l q in Ret (IRElem a, p)
    | IPreInc => let* q := ptr_add l p 1 in Ret (IRIter q, q)
    | IPostInc => let* q := ptr_add l p 1 in Ret (IRIter p, q)
    | IPreDec => let* q := ptr_add l p (-1) in Ret (IRIter q, q)
    | IPostDec => let* q := ptr_add l p (-1) in Ret (IRIter p, q)
    | IPlus n => let* q := ptr_add l p n in Ret (IRIter q, p)
    | IMinus n => let* q := ptr_add l p (- n) in Ret (IRIter q, p)
    | IPlusEq n => let* q := ptr_add l p n in Ret (IRIter q, q)
    | IMinusEq n => let* q := ptr_add l p (- n) in Ret (IRIter q, q)
    | IEq q => Ret (IRBool (p =? q), p)
    | INe q => Ret (IRBool (negb (p =? q)), p)
    end.

  (** operator*: reverse_iterator.ipp lines 58-64. *)
  Definition rev_deref (l : list A) (cur : Z) : outcome A :=
    let* tmp := ptr_add l cur (-1) in ptr_read l tmp.

  (** reverse_iterator: lines 58-172; [cur] is m_current, results that are iterators are
      given by their m_current as well, [q] in the comparisons is the other m_current.
      operator-> (lines 66-72) is operator* without the final access. *)
  Definition rev_op (l : list A) (cur : Z) (o : iop) : outcome (ires * Z) :=
    match o with
    | IDeref => let* a := rev_deref l cur in Ret (IRElem a, cur)
    | IIndex n => let* q := ptr_add l cur (- n) in let* a := rev_deref l q in Ret (IRElem a, cur)
    | IPreInc => let* q := ptr_add l cur (-1) in Ret (IRIter q, q)
    | IPostInc => let* q := ptr_add l cur (-1) in Ret (IRIter cur, q)
    | IPreDec => let* q := ptr_add l cur 1 in Ret (IRIter q, q)
    | IPostDec => let* q := ptr_add l cur 1 in Ret (IRIter cur, q)
    | IPlus n => let* q := ptr_add l cur (- n) in Ret (IRIter q, cur)
    | IMinus n => let* q := ptr_add l cur n in Ret (IRIter q, cur)
    | IPlusEq n => let* q := ptr_add l cur (- n) in Ret (IRIter q, q)
    | IMinusEq n => let* q := ptr_add l cur n in Ret (IRIter q, q)
    | IEq q => Ret (IRBool (cur =? q), cur)
    | INe q => Ret (IRBool (negb (cur =? q)), cur)
    end.

  (** begin, end, rbegin, rend of all containers: static_array.ipp lines 138-218, array.ipp
      126-196, device_array.ipp 149-, jagged_device_vector.ipp 124-204. *)
  Definition it_begin (l : list A) : Z := 0.
  Definition it_end (l : list A) : Z := Z.of_nat (length l).
  Definition it_rbegin (l : list A) : Z := it_end l.
  Definition it_rend (l : list A) : Z := it_begin l.

  (** Several operators one after the other; results in order. *)
  Fixpoint it_run (op : Z -> iop -> outcome (ires * Z)) (p : Z) (os : list iop) : outcome (list ires * Z) :=
    match os with
    | [] => Ret ([], p)
    | o :: os' => let* x := op p o in let* y := it_run op (snd x) os' in Ret (fst x :: fst y, snd y)
    end.

  (** ** Fixed-size arrays: [l] holds the [N] elements, indices are 64-bit numbers. *)
  Definition arr_get (l : list A) (i : Z) : outcome A := ptr_read l i.
  Definition arr_set (l : list A) (i : Z) (a : A) : outcome (list A) :=
    if (0 <=? i) && (i <? Z.of_nat (length l)) then Ret (upd l (Z.to_nat i) a) else UB.

  (** static_array::at (static_array.ipp lines 21-47) and array::at (array.ipp lines 36-56),
      reading and writing through the reference. *)
  Definition arr_at (N : Z) (l : list A) (i : Z) : outcome A :=
    if i >=? N then Throw out_of_range else arr_get l i.
  Definition arr_at_set (N : Z) (l : list A) (i : Z) (a : A) : outcome (list A) :=
    if i >=? N then Throw out_of_range else arr_set l i a.
  (** device_array::at: device_array.ipp lines 58-77. *)
  Definition dev_at (N : Z) (l : list A) (i : Z) : outcome A := assert (i <? N) (arr_get l i).
  (** device_array constructor, lines 19-35: the view has to have at least N elements. *)
  Definition dev_make (N : Z) (l : list A) : outcome (list A) := assert (Z.of_nat (length l) >=? N) (Ret l).

  (** array::front, array::back: array.ipp lines 70-112. *)
  Definition array_front (N : Z) (l : list A) : outcome A := if N =? 0 then Throw out_of_range else arr_get l 0.
  Definition array_back (N : Z) (l : list A) : outcome A := if N =? 0 then Throw out_of_range else arr_get l (N - 1).
  (** static_array::front, back: static_array.ipp lines 84-118 (no check). *)
  Definition static_front (N : Z) (l : list A) : outcome A := arr_get l 0.
  Definition static_back (N : Z) (l : list A) : outcome A := arr_get l (N - 1).

  (** fill: static_array.ipp lines 240-246; array.ipp lines 210-214 (std::fill). [k] more
      iterations from index [i]. *)
  Fixpoint fill_loop (k : nat) (i : Z) (a : A) (l : list A) : outcome (list A) :=
    match k with
    | O => Ret l
    | S k' => let* l' := arr_set l i a in fill_loop k' (i + 1) a l'
    end.
  Definition arr_fill (N : nat) (a : A) (l : list A) : outcome (list A) := fill_loop N 0 a l.

  (** operator== and operator!= of static_array: static_array.ipp lines 248-286; [ne] is
      the operator!= of the element type. *)
  Section Eq.
    Variable ne : A -> A -> bool.
    Fixpoint eq_loop (k : nat) (i : Z) (l r : list A) : outcome bool :=
      match k with
      | O => Ret true
      | S k' => let* x := arr_get l i in let* y := arr_get r i in
                if ne x y then Ret false else eq_loop k' (i + 1) l r
      end.
    Fixpoint ne_loop (k : nat) (i : Z) (l r : list A) : outcome bool :=
      match k with
      | O => Ret false
      | S k' => let* x := arr_get l i in let* y := arr_get r i in
                if ne x y then Ret true else ne_loop k' (i + 1) l r
      end.
    Definition arr_eq (N : nat) (l r : list A) : outcome bool := eq_loop N 0 l r.
    Definition arr_ne (N : nat) (l r : list A) : outcome bool := ne_loop N 0 l r.
  End Eq.
End Iter.
Arguments ires A : clear implicits.

(** jagged_device_vector_iterator: jagged_device_vector_iterator.ipp lines 84-181, over the
    array of views; dereferencing makes a device_vector of the view ([mk]). *)
Section Jagged.
  Context {V D : Type} (mk : V -> D).
  Definition jag_op (l : list V) (p : Z) (o : iop) : outcome (ires D * Z) :=
    match o with
    | IDeref => let* v := ptr_read l p in Ret (IRElem (mk v), p)
    | IIndex n => let* q := ptr_add l p n in let* v := ptr_read l q in Ret (IRElem (mk v), p)
    | IPreInc => let* q := ptr_add l p 1 in Ret (IRIter q, q)
    | IPostInc => let* q := ptr_add l p 1 in Ret (IRIter p, q)
    | IPreDec => let* q := ptr_add l p (-1) in Ret (IRIter q, q)
    | IPostDec => let* q := ptr_add l p (-1) in Ret (IRIter p, q)
    | IPlus n => let* q := ptr_add l p n in Ret (IRIter q, p)
    | IMinus n => let* q := ptr_add l p (- n) in Ret (IRIter q, p)
    | IPlusEq n => let* q := ptr_add l p n in Ret (IRIter q, q)
    | IMinusEq n => let* q := ptr_add l p (- n) in Ret (IRIter q, q)
    | IEq q => Ret (IRBool (p =? q), p)
    | INe q => Ret (IRBool (negb (p =? q)), p)
    end.

  (** jagged_device_vector: at, operator[], front, back (jagged_device_vector.ipp lines 44-122);
      [size] is m_size. *)
  Definition jag_at (l : list V) (size pos : Z) : outcome D := assert (pos <? size) (let* v := ptr_read l pos in Ret (mk v)).
  Definition jag_index (l : list V) (pos : Z) : outcome D := let* v := ptr_read l pos in Ret (mk v).
  Definition jag_front (l : list V) (size : Z) : outcome D := assert (size >? 0) (let* v := ptr_read l 0 in Ret (mk v)).
  Definition jag_back (l : list V) (size : Z) : outcome D := assert (size >? 0) (let* v := ptr_read l (size - 1) in Ret (mk v)).
End Jagged.
