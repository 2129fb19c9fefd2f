(** C144: vecmem::tuple. *)
From Verif Require Import Tuple TupleProofs.
From Coq Require Import List ZArith Lia.
Import ListNotations.
Open Scope Z_scope.

(** The main constructor: every element of object type is a new object with the value of its
    argument, every element of reference type denotes its argument; get is defined exactly for
    the indices of elements; nothing else changes. *)
Theorem C144_construct : forall ts args st, length ts = length args -> (forall a, In a args -> read st a <> None) ->
  exists t new, construct ts args st = Some (t, st ++ new) /\
    (forall i, match nth_error ts i, nth_error args i with
      | Some TReference, Some a => get i t = Some a
      | Some TObject, Some a => exists l, get i t = Some l /\ (length st <= l)%nat /\ read (st ++ new) l = read st a
      | _, _ => get i t = None
      end) /\
    (forall i j l l', i <> j -> nth_error ts i = Some TObject -> nth_error ts j = Some TObject -> get i t = Some l -> get j t = Some l' -> l <> l').
Proof. exact construct_made. Qed.
Print Assumptions C144_construct.

Theorem C144_arity : forall ts args st, length ts <> length args -> construct ts args st = None.
Proof. exact construct_none. Qed.
Print Assumptions C144_arity.

Theorem C144_tie : forall args st, (forall a, In a args -> read st a <> None) ->
  exists t, tie args st = Some (t, st) /\ forall i, get i t = nth_error args i.
Proof. exact tie_thm. Qed.
Print Assumptions C144_tie.

Theorem C144_make_tuple : forall args st, (forall a, In a args -> read st a <> None) ->
  exists t new, make_tuple args st = Some (t, st ++ new) /\
    (forall i, match nth_error args i with
      | Some a => exists l, get i t = Some l /\ (length st <= l)%nat /\ read (st ++ new) l = read st a
      | None => get i t = None
      end) /\
    (forall i j l l', i <> j -> get i t = Some l -> get j t = Some l' -> l <> l').
Proof. exact make_tuple_thm. Qed.
Print Assumptions C144_make_tuple.

(** Copies and conversions. *)
Theorem C144_copy : forall ts parent st, length ts = sizeof parent -> (forall i a, get i parent = Some a -> read st a <> None) ->
  exists t new, convert ts parent st = Some (t, st ++ new) /\
    (forall i, match nth_error ts i, get i parent with
      | Some TReference, Some a => get i t = Some a
      | Some TObject, Some a => exists l, get i t = Some l /\ (length st <= l)%nat /\ read (st ++ new) l = read st a
      | _, _ => get i t = None
      end) /\
    (forall i j l l', i <> j -> nth_error ts i = Some TObject -> nth_error ts j = Some TObject -> get i t = Some l -> get j t = Some l' -> l <> l').
Proof. exact convert_thm. Qed.
Print Assumptions C144_copy.

(** A head in front of a temporary tail: the tuple is as if made from all of the elements, and
    does not depend on the destroyed elements of the tail, if no element of reference type is
    made from an element of object type of the tail. *)
Theorem C144_concat : forall ty ts head tail st,
  length ts = sizeof tail -> read st head <> None -> (forall i a, get i tail = Some a -> read st a <> None) ->
  (forall i, nth_error ts i = Some TReference -> nth_error (types tail) i = Some TReference) ->
  (forall i l, nth_error (types tail) i = Some TObject -> get i tail = Some l ->
     l <> head /\ forall j, nth_error (types tail) j = Some TReference -> get j tail <> Some l) ->
  exists t st', tuple_concat (ty :: ts) head tail st = Some (t, st') /\
    (forall k, (k < length st)%nat -> (forall i, nth_error (types tail) i = Some TObject -> get i tail <> Some k) -> read st' k = read st k) /\
    (forall i l, nth_error (types tail) i = Some TObject -> get i tail = Some l -> read st' l = None) /\
    (forall i, match nth_error (ty :: ts) i, match i with O => Some head | S i' => get i' tail end with
      | Some TReference, Some a => get i t = Some a /\ read st' a = read st a
      | Some TObject, Some a => exists l, get i t = Some l /\ (length st <= l)%nat /\ read st' l = read st a
      | _, _ => get i t = None
      end) /\
    (forall i j l l', i <> j -> nth_error (ty :: ts) i = Some TObject -> nth_error (ty :: ts) j = Some TObject -> get i t = Some l -> get j t = Some l' -> l <> l').
Proof. exact concat_made. Qed.
Print Assumptions C144_concat.

(** Three variables 5, 6, 7: a tuple (int, int &, int). *)
Example C144_ex : construct [TObject; TReference; TObject] [0%nat; 1%nat; 2%nat] [Some 5; Some 6; Some 7]
  = Some (TCons (MObject 3) (TCons (MReference 1) (TCons (MObject 4) TNil)), [Some 5; Some 6; Some 7; Some 5; Some 7]).
Proof. reflexivity. Qed.
Example C144_tie_ex : exists t, tie [2%nat; 0%nat] [Some 5; Some 6; Some 7] = Some (t, [Some 5; Some 6; Some 7]) /\ get 0 t = Some 2%nat /\ get 1 t = Some 0%nat /\ get 2 t = None.
Proof. eexists. repeat split. Qed.
(** The tail (int, int &) made from 6 and 7 is put behind a reference to 5. *)
Definition ex_tail := TCons (MObject 3) (TCons (MReference 2) TNil).
Definition ex_store := [Some 5; Some 6; Some 7; Some 6].
Example C144_concat_ex :
  (forall i a, get i ex_tail = Some a -> read ex_store a <> None) /\
  (forall i, nth_error [TObject; TReference] i = Some TReference -> nth_error (types ex_tail) i = Some TReference) /\
  (forall i l, nth_error (types ex_tail) i = Some TObject -> get i ex_tail = Some l ->
     l <> 0%nat /\ forall j, nth_error (types ex_tail) j = Some TReference -> get j ex_tail <> Some l) /\
  tuple_concat [TReference; TObject; TReference] 0 ex_tail ex_store
  = Some (TCons (MReference 0) (TCons (MObject 4) (TCons (MReference 2) TNil)), [Some 5; Some 6; Some 7; None; Some 6]).
Proof.
  repeat split.
  - intros [|[|i]] a; cbn; intros [= <-]; discriminate.
  - intros [|[|[|i]]]; cbn; congruence.
  - destruct i as [|[|[|i]]]; cbn in *; congruence.
  - destruct i as [|[|[|i]]]; cbn in *; try congruence. intros [|[|[|j]]]; cbn; congruence.
Qed.
(** The restriction is needed: a reference made from an object of the tail, which the
    constructor accepts (const int & can be made from int &&), denotes a destroyed object. *)
Example C144_dangling_ex : exists t st', tuple_concat [TReference; TReference] 0 (TCons (MObject 1) TNil) [Some 5; Some 6] = Some (t, st') /\
  get 1 t = Some 1%nat /\ read st' 1 = None.
Proof. do 2 eexists. repeat split. Qed.
