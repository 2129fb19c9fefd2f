(** Model of vecmem::static_vector
    (core/include/vecmem/containers/static_vector.hpp and
    core/include/vecmem/containers/impl/static_vector.ipp). *)
From Verif Require Export Base.
From Verif Require Import Slots.

(** One element-sized slot of [m_elements].
    - [SRaw]: bytes that hold no object;
    - [SOld a]: bytes left behind by [memmove]: the object now lives in another slot;
    - [SVal a]: an object.
    Simplification: [memmove] of an object is taken to relocate it, which is right for
    trivially relocatable types; other types would be broken by any move. *)
Inductive scell (A : Type) := SRaw | SOld (a : A) | SVal (a : A).
Arguments SRaw {A}. Arguments SOld {A} a. Arguments SVal {A} a.

Section StaticVector.
  Context {A : Type}.

  (** [m_size] and [m_elements] (static_vector.hpp, last lines).  The number of slots is
      [MAX_SIZE].  [sv_lost] is ghost state: how many objects had their storage
      overwritten without their destructor being called. *)
  Record svec := mkS { sv_size : Z; sv_mem : list (scell A); sv_lost : nat }.
  Definition sv_cap (s : svec) : Z := Z.of_nat (length (sv_mem s)).

  Definition live (c : scell A) : bool := match c with SVal _ => true | _ => false end.
  Definition live_count (m : list (scell A)) : nat := length (filter live m).

  (** Reading through a reference.  Bytes left behind by [memmove] still read as the old
      value; that is what happens for trivially copyable types, the best case. *)
  Definition sv_read (m : list (scell A)) (i : Z) : outcome A :=
    if i <? 0 then UB else
    match nth_error m (Z.to_nat i) with Some (SVal a) | Some (SOld a) => Ret a | _ => UB end.
  Definition sv_arg (m : list (scell A)) (x : arg A) : outcome A :=
    match x with AVal a => Ret a | ARef i => sv_read m i end.

  (** construct (static_vector.ipp 463-472): asserts the position, then placement new. *)
  Definition sv_construct (s : svec) (i : Z) (x : arg A) : outcome svec :=
    assert ((0 <=? i) && (i <? sv_cap s)) (
      let* a := sv_arg (sv_mem s) x in
      let old := match nth_error (sv_mem s) (Z.to_nat i) with Some c => live c | None => false end in
      Ret (mkS (sv_size s) (upd (sv_mem s) (Z.to_nat i) (SVal a)) (sv_lost s + (if old then 1 else 0)))).

  (** destruct (475-484): asserts the position, then an explicit destructor call, which is
      undefined if there is no object. *)
  Definition sv_destruct (s : svec) (i : Z) : outcome svec :=
    assert ((0 <=? i) && (i <? sv_size s)) (
      match nth_error (sv_mem s) (Z.to_nat i) with
      | Some (SVal _) => Ret (mkS (sv_size s) (upd (sv_mem s) (Z.to_nat i) SRaw) (sv_lost s))
      | _ => UB
      end).

  (** [for (i = lo; i < lo + n; ++i) f(i)]. *)
  Fixpoint sv_loop (f : svec -> Z -> outcome svec) (s : svec) (lo : Z) (n : nat) : outcome svec :=
    match n with
    | 0%nat => Ret s
    | S n' => let* s' := f s lo in sv_loop f s' (lo + 1) n'
    end.

  (** [memmove(&m[d], &m[src], n * value_size)]: the objects are lifted off the source
      slots and put down on the destination slots.  Both ranges must lie inside of
      [m_elements]. *)
  Definition ghost (c : scell A) : scell A := match c with SVal a => SOld a | c => c end.
  Definition sv_move (s : svec) (d src n : Z) : outcome svec :=
    if (0 <=? d) && (0 <=? src) && (0 <=? n) && (d + n <=? sv_cap s) && (src + n <=? sv_cap s) then
      let m := sv_mem s in
      let k := Z.to_nat n in let j := Z.to_nat src in let i := Z.to_nat d in
      let objs := firstn k (skipn j m) in
      let m1 := firstn j m ++ map ghost objs ++ skipn (j + k) m in
      let m2 := firstn i m1 ++ objs ++ skipn (i + k) m1 in
      Ret (mkS (sv_size s) m2 (sv_lost s + live_count (firstn k (skipn i m1))))
    else UB.

  Definition with_size (s : svec) (n : Z) : svec := mkS n (sv_mem s) (sv_lost s).

  (** element_id (487-494): an iterator is given by its distance from [begin()]; the
      distance is converted to an unsigned number and asserted to be at most the size. *)
  Definition sv_id (s : svec) (pos : Z) : outcome Z :=
    let i := pos mod 2 ^ 64 in assert (i <=? sv_size s) (Ret i).

  (** clear (306-312). *)
  Definition sv_clear (s : svec) : outcome svec :=
    let* s1 := sv_loop sv_destruct s 0 (Z.to_nat (sv_size s)) in Ret (with_size s1 0).

  (** assign (140-156). *)
  Definition sv_assign (s : svec) (n : Z) (x : arg A) : outcome svec :=
    assert (n <=? sv_cap s) (
      let* s1 := sv_clear s in
      let* s2 := sv_loop (fun s i => sv_construct s i x) s1 0 (Z.to_nat n) in
      Ret (with_size s2 n)).

  (** Range assign (static_vector.hpp 147-164): [construct(m_size++, *itr)].
      Simplification: the range does not refer to elements of the vector. *)
  Fixpoint sv_append_each (s : svec) (v : list A) : outcome svec :=
    match v with
    | [] => Ret s
    | a :: v' => let* s1 := sv_construct (with_size s (sv_size s + 1)) (sv_size s) (AVal a) in sv_append_each s1 v'
    end.
  Definition sv_assign_range (s : svec) (v : list A) : outcome svec :=
    let* s1 := sv_clear s in sv_append_each s1 v.

  (** insert of one value (159-181); emplace (212-234) has the same body. *)
  Definition sv_insert (s : svec) (pos : Z) (x : arg A) : outcome (Z * svec) :=
    assert (sv_size s <? sv_cap s) (
      let* i := sv_id s pos in
      let* s1 := sv_move s (i + 1) i (sv_size s - i) in
      let* s2 := sv_construct s1 i x in
      Ret (i, with_size s2 (sv_size s2 + 1))).

  (** insert of [n] copies (184-208).  [m_size + count] wraps modulo 2^64. *)
  Definition sv_insert_n (s : svec) (pos n : Z) (x : arg A) : outcome (Z * svec) :=
    assert ((sv_size s + n) mod 2 ^ 64 <=? sv_cap s) (
      let* i := sv_id s pos in
      let* s1 := sv_move s (i + n) i (sv_size s - i) in
      let* s2 := sv_loop (fun s k => sv_construct s k x) s1 i (Z.to_nat n) in
      Ret (i, with_size s2 (sv_size s2 + n))).

  (** Range insert (static_vector.hpp 172-194): one by one.
      Simplification: the range does not refer to elements of the vector. *)
  Fixpoint sv_insert_each (s : svec) (pos : Z) (v : list A) : outcome svec :=
    match v with
    | [] => Ret s
    | a :: v' => let* r := sv_insert s pos (AVal a) in sv_insert_each (snd r) (pos + 1) v'
    end.
  Definition sv_insert_range (s : svec) (pos : Z) (v : list A) : outcome (Z * svec) :=
    let* i := sv_id s pos in
    let* s1 := sv_insert_each s pos v in Ret (i, s1).

  (** erase of one element (252-271). *)
  Definition sv_erase (s : svec) (pos : Z) : outcome (Z * svec) :=
    let* i := sv_id s pos in
    let* s1 := sv_destruct s i in
    let* s2 := sv_move s1 i (i + 1) (sv_size s1 - i - 1) in
    Ret (i, with_size s2 (sv_size s2 - 1)).

  (** erase of a range (274-297). *)
  Definition sv_erase_range (s : svec) (first last : Z) : outcome (Z * svec) :=
    let* i := sv_id s first in
    let* j := sv_id s last in
    assert (i <=? j) (
      let* s1 := sv_loop sv_destruct s i (Z.to_nat (j - i)) in
      let* s2 := sv_move s1 i j (sv_size s1 - j) in
      Ret (i, with_size s2 (sv_size s2 - (j - i)))).

  (** resize (322-342). *)
  Definition sv_resize (s : svec) (n : Z) (x : arg A) : outcome svec :=
    assert (n <=? sv_cap s) (
      if n =? sv_size s then Ret s
      else if n <? sv_size s then let* r := sv_erase_range s n (sv_size s) in Ret (snd r)
      else let* r := sv_insert_n s (sv_size s) (n - sv_size s) x in Ret (snd r)).

  (** Constructors and destructor (16-43).  A new object starts from raw memory. *)
  Definition sv_new (cap : nat) : svec := mkS 0 (repeat SRaw cap) 0.
  Definition sv_new_fill (cap : nat) (n : Z) (x : A) : outcome svec :=
    sv_assign (mkS n (repeat SRaw cap) 0) n (AVal x).
  Definition sv_new_range (cap : nat) (v : list A) : outcome svec := sv_assign_range (sv_new cap) v.
  Definition sv_copy_each (parent : svec) (s : svec) (i : Z) : outcome svec :=
    let* a := sv_read (sv_mem parent) i in sv_construct s i (AVal a).
  Definition sv_new_copy (parent : svec) : outcome svec :=
    sv_loop (sv_copy_each parent) (mkS (sv_size parent) (repeat SRaw (length (sv_mem parent))) 0) 0 (Z.to_nat (sv_size parent)).
  Definition sv_delete (s : svec) : outcome svec := sv_clear s.

  (** The implicit copy assignment operator: the class declares a copy constructor and a
      destructor only (static_vector.hpp 74-98), so the compiler generates a memberwise
      one, which copies the bytes of [m_elements].  The bytes are no new objects, and the
      objects which were in the target are not destroyed. *)
  Definition sv_copy_assign (s src : svec) : svec :=
    mkS (sv_size src) (map ghost (sv_mem src)) (sv_lost s + live_count (sv_mem s)).

  (** Element access (46-137). *)
  Definition sv_at (s : svec) (i : Z) : outcome A := assert (i <? sv_size s) (sv_read (sv_mem s) i).
  Definition sv_get (s : svec) (i : Z) : outcome A := sv_read (sv_mem s) i.
  Definition sv_front (s : svec) : outcome A := assert (0 <? sv_size s) (sv_read (sv_mem s) 0).
  Definition sv_back (s : svec) : outcome A := assert (0 <? sv_size s) (sv_read (sv_mem s) (sv_size s - 1)).

  (** The elements seen by iterating from [begin()] to [end()] (345-382). *)
  Fixpoint sv_read_from (m : list (scell A)) (i : Z) (n : nat) : outcome (list A) :=
    match n with
    | 0%nat => Ret []
    | S n' => let* a := sv_read m i in let* l := sv_read_from m (i + 1) n' in Ret (a :: l)
    end.
  Definition sv_elements (s : svec) : outcome (list A) := sv_read_from (sv_mem s) 0 (Z.to_nat (sv_size s)).

  (** The operations, for running sequences of them.  Positions and sizes are the
      arguments of the calls; iterators are given as distances from [begin()]. *)
  Inductive sop :=
  | SAssign (n : Z) (x : arg A) | SAssignRange (v : list A)
  | SInsert (pos : Z) (x : arg A) | SInsertN (pos n : Z) (x : arg A) | SInsertRange (pos : Z) (v : list A)
  | SEmplace (pos : Z) (x : arg A) | SEmplaceBack (x : arg A) | SPush (x : arg A)
  | SErase (pos : Z) | SEraseRange (first last : Z) | SPop | SClear
  | SResize (n : Z) | SResizeVal (n : Z) (x : arg A)
  | SAt (i : Z) | SGet (i : Z) | SFront | SBack
  | SEmpty | SSize | SMaxSize | SCapacity | SReserve (n : Z).

  Inductive sret := SUnit | SPos (i : Z) | SNum (n : Z) | SElem (a : A) | SBool (b : bool).

  Definition ret_pos (r : outcome (Z * svec)) : outcome (sret * svec) := let* p := r in Ret (SPos (fst p), snd p).
  Definition ret_unit (r : outcome svec) : outcome (sret * svec) := let* s := r in Ret (SUnit, s).
  Definition ret_elem (s : svec) (r : outcome A) : outcome (sret * svec) := let* a := r in Ret (SElem a, s).

  Definition sstep (dflt : A) (s : svec) (o : sop) : outcome (sret * svec) :=
    match o with
    | SAssign n x => ret_unit (sv_assign s n x)
    | SAssignRange v => ret_unit (sv_assign_range s v)
    | SInsert p x => ret_pos (sv_insert s p x)
    | SInsertN p n x => ret_pos (sv_insert_n s p n x)
    | SInsertRange p v => ret_pos (sv_insert_range s p v)
    | SEmplace p x => ret_pos (sv_insert s p x)
    (* emplace_back 238-242: [*(emplace(end(), ...))] *)
    | SEmplaceBack x => let* r := sv_insert s (sv_size s) x in ret_elem (snd r) (sv_read (sv_mem (snd r)) (fst r))
    (* push_back 245-249: [insert(end(), value)] *)
    | SPush x => let* r := sv_insert s (sv_size s) x in Ret (SUnit, snd r)
    | SErase p => ret_pos (sv_erase s p)
    | SEraseRange p q => ret_pos (sv_erase_range s p q)
    (* pop_back 300-303: [erase(end() - 1)] *)
    | SPop => let* r := sv_erase s (sv_size s - 1) in Ret (SUnit, snd r)
    | SClear => ret_unit (sv_clear s)
    (* resize(n) 315-319: [resize(n, value_type())] *)
    | SResize n => ret_unit (sv_resize s n (AVal dflt))
    | SResizeVal n x => ret_unit (sv_resize s n x)
    | SAt i => ret_elem s (sv_at s i)
    | SGet i => ret_elem s (sv_get s i)
    | SFront => ret_elem s (sv_front s)
    | SBack => ret_elem s (sv_back s)
    | SEmpty => Ret (SBool (sv_size s =? 0), s)
    | SSize => Ret (SNum (sv_size s), s)
    | SMaxSize | SCapacity => Ret (SNum (sv_cap s), s)
    (* reserve 453-460 *)
    | SReserve n => assert (n <=? sv_cap s) (Ret (SUnit, s))
    end.

  Fixpoint sruns (dflt : A) (s : svec) (ops : list sop) : outcome (list sret * svec) :=
    match ops with
    | [] => Ret ([], s)
    | o :: ops' => let* r := sstep dflt s o in
                   let* r' := sruns dflt (snd r) ops' in Ret (fst r :: fst r', snd r')
    end.
End StaticVector.
Arguments svec A : clear implicits.
Arguments sop A : clear implicits.
Arguments sret A : clear implicits.

(** ** Placement of the elements inside of a static_vector object
    The members are [size_type m_size] (8 bytes, 8 aligned) followed by
    [char m_elements[...]] (alignment 1), so the object needs an alignment of 8 only, and
    the elements start 8 bytes into it (static_vector.hpp 46-48, and the last lines). *)
Definition sv_alignof : Z := 8.
Definition sv_element_address (base sizeof_t i : Z) : Z := base + 8 + i * sizeof_t.
