(** Model of vecmem::device_vector (core/include/vecmem/containers/device_vector.hpp,
    core/include/vecmem/containers/impl/device_vector.ipp).

    The memory behind [m_ptr] is a list of [capacity] slots; the counter behind
    [m_size] is part of the state ([None] for a null pointer).  [size_type] is
    [unsigned int], so counter arithmetic is modulo 2^32.  Failing asserts are
    undefined behaviour ([UB]).  Constructors and destructors of TYPE do not throw. *)
From Verif Require Export Slots.

Section DeviceVector.
  Context {A : Type} (dflt : A).  (* dflt: value_type() *)

  Record dvec := mkD { d_cap : Z; d_size : option Z; d_mem : list (cell A) }.

  Inductive dret := RUnit | RSize (n : Z) | RVal (a : A) | RBool (b : bool).
  Definition dres := outcome (dret * dvec).

  (** construct, lines 511-520; destruct, lines 522-531. *)
  Definition d_construct (cap : Z) (m : list (cell A)) (pos : Z) (x : arg A) : outcome (list (cell A)) :=
    assert (pos <? cap) (let* a := arg_read m x in slot_new m pos a).
  Definition d_destruct (cap : Z) (m : list (cell A)) (pos : Z) : outcome (list (cell A)) :=
    assert (pos <? cap) (slot_delete m pos).

  (** The asserts on m_size: the size counter of a resizable vector. *)
  Definition d_counter (s : dvec) : outcome Z := match d_size s with Some n => Ret n | None => UB end.

  (** fetch_add on the counter (posix_device_atomic_ref.ipp lines 111-117) and
      fetch_sub (lines 119-125), sequentially. *)
  Definition add32 (a b : Z) : Z := (a + b) mod 2 ^ 32.

  (** size, lines 483-497. *)
  Definition dv_size (s : dvec) : Z := match d_size s with Some n => n | None => d_cap s end.

  (** clear, lines 313-328. *)
  Definition d_clear (s : dvec) : outcome dvec :=
    let* n := d_counter s in
    let* m := slot_loop (d_destruct (d_cap s)) (d_mem s) 0 (Z.to_nat n) in
    Ret (mkD (d_cap s) (Some 0) m).

  (** assign, lines 155-173. *)
  Definition d_assign (s : dvec) (count : Z) (x : arg A) : outcome dvec :=
    let* _ := d_counter s in
    assert (count <=? d_cap s) (
    let* s1 := d_clear s in
    let* m := slot_loop (fun m i => d_construct (d_cap s) m i x) (d_mem s1) 0 (Z.to_nat count) in
    Ret (mkD (d_cap s) (Some count) m)).

  (** assign from iterators, device_vector.hpp lines 135-151; the range lies outside
      of the vector. *)
  Fixpoint d_append_each (cap n : Z) (m : list (cell A)) (l : list A) : outcome (Z * list (cell A)) :=
    match l with
    | [] => Ret (n, m)
    | a :: l' => let* m' := d_construct cap m n (AVal a) in d_append_each cap (add32 n 1) m' l'
    end.
  Definition d_assign_range (s : dvec) (l : list A) : outcome dvec :=
    let* s1 := d_clear s in
    let* r := d_append_each (d_cap s) 0 (d_mem s1) l in
    Ret (mkD (d_cap s) (Some (fst r)) (snd r)).

  (** emplace_back, lines 175-194; [a] is the value built from the arguments. *)
  Definition d_emplace_back (s : dvec) (a : A) : outcome (A * dvec) :=
    let* n := d_counter s in
    assert (n <? d_cap s) (
    let* m := slot_new (d_mem s) n a in
    let* r := slot_read m n in
    Ret (r, mkD (d_cap s) (Some (add32 n 1)) m)).

  (** push_back, lines 196-214. *)
  Definition d_push_back (s : dvec) (x : arg A) : outcome (Z * dvec) :=
    let* n := d_counter s in
    assert (n <? d_cap s) (
    let* m := d_construct (d_cap s) (d_mem s) n x in
    Ret (n, mkD (d_cap s) (Some (add32 n 1)) m)).

  (** bulk_append, lines 216-235 and 237-257. *)
  Definition d_bulk_append (s : dvec) (n : Z) (x : arg A) : outcome (Z * dvec) :=
    let* index := d_counter s in
    assert (add32 index n <=? d_cap s) (
    let* m := slot_loop (fun m i => d_construct (d_cap s) m i x) (d_mem s) index (Z.to_nat n) in
    Ret (index, mkD (d_cap s) (Some (add32 index n)) m)).

  (** bulk_append_implicit, lines 259-281, and bulk_append_implicit_unsafe, lines
      283-294: the slots hold objects of indeterminate value. *)
  Definition slot_implicit (m : list (cell A)) (i : Z) : outcome (list (cell A)) :=
    Ret (upd m (Z.to_nat i) Indet).
  Definition d_bulk_append_implicit (s : dvec) (n : Z) : outcome (Z * dvec) :=
    let* index := d_counter s in
    assert (add32 index n <=? d_cap s) (
    let* m := slot_loop slot_implicit (d_mem s) index (Z.to_nat n) in
    Ret (index, mkD (d_cap s) (Some (add32 index n)) m)).

  (** pop_back, lines 296-311. *)
  Definition d_pop_back (s : dvec) : outcome (Z * dvec) :=
    let* n := d_counter s in
    let new_size := add32 n (-1) in
    let* m := d_destruct (d_cap s) (d_mem s) new_size in
    Ret (new_size, mkD (d_cap s) (Some new_size) m).

  (** resize, lines 330-334 and 336-368. *)
  Definition d_resize (s : dvec) (new_size : Z) (x : arg A) : outcome dvec :=
    let* n := d_counter s in
    if new_size =? n then Ret s
    else if new_size <? n then
      let* m := slot_loop (d_destruct (d_cap s)) (d_mem s) new_size (Z.to_nat (n - new_size)) in
      Ret (mkD (d_cap s) (Some new_size) m)
    else
      let* m := slot_loop (fun m i => d_construct (d_cap s) m i x) (d_mem s) n (Z.to_nat (new_size - n)) in
      Ret (mkD (d_cap s) (Some new_size) m).

  (** resize_implicit, lines 370-385, and resize_implicit_unsafe, lines 387-396. *)
  Definition d_resize_implicit (s : dvec) (new_size : Z) : outcome dvec :=
    let* n := d_counter s in
    assert (new_size <=? d_cap s) (
    let* m := slot_loop slot_implicit (d_mem s) n (Z.to_nat (new_size - n)) in
    Ret (mkD (d_cap s) (Some new_size) m)).

  (** at, lines 63-83; operator[], lines 85-99; front, lines 101-120; back, lines
      122-141. *)
  Definition d_at (s : dvec) (pos : Z) : outcome A := assert (pos <? dv_size s) (slot_read (d_mem s) pos).
  Definition d_get (s : dvec) (pos : Z) : outcome A := slot_read (d_mem s) pos.
  Definition d_front (s : dvec) : outcome A := assert (0 <? dv_size s) (slot_read (d_mem s) 0).
  Definition d_back (s : dvec) : outcome A := assert (0 <? dv_size s) (slot_read (d_mem s) (dv_size s - 1)).
  Definition d_empty (s : dvec) : bool := dv_size s =? 0.

  (** The values between begin() and end() (lines 398-440). *)
  Fixpoint slot_read_all (m : list (cell A)) (i : Z) (n : nat) : outcome (list A) :=
    match n with
    | 0%nat => Ret []
    | S n' => let* a := slot_read m i in let* l := slot_read_all m (i + 1) n' in Ret (a :: l)
    end.
  Definition d_elements (s : dvec) : outcome (list A) := slot_read_all (d_mem s) 0 (Z.to_nat (dv_size s)).

  (** Calls on a vector. *)
  Inductive dop :=
  | OClear | OAssign (n : Z) (x : arg A) | OAssignRange (l : list A) | OPush (x : arg A) | OEmplace (a : A) | OPop
  | OResize (n : Z) (x : arg A) | OResizeDefault (n : Z) | OBulk (n : Z) | OBulkVal (n : Z) (x : arg A)
  | OBulkImplicit (n : Z) | OResizeImplicit (n : Z)
  | OAt (i : Z) | OGet (i : Z) | OFront | OBack | OSize | OEmpty | OCapacity.

  Definition void (r : outcome dvec) : dres := let* s := r in Ret (RUnit, s).
  Definition sized (r : outcome (Z * dvec)) : dres := let* p := r in Ret (RSize (fst p), snd p).
  Definition valued (s : dvec) (r : outcome A) : dres := let* a := r in Ret (RVal a, s).

  Definition dstep (s : dvec) (o : dop) : dres :=
    match o with
    | OClear => void (d_clear s)
    | OAssign n x => void (d_assign s n x)
    | OAssignRange l => void (d_assign_range s l)
    | OPush x => sized (d_push_back s x)
    | OEmplace a => let* p := d_emplace_back s a in Ret (RVal (fst p), snd p)
    | OPop => sized (d_pop_back s)
    | OResize n x => void (d_resize s n x)
    | OResizeDefault n => void (d_resize s n (AVal dflt))
    | OBulk n => sized (d_bulk_append s n (AVal dflt))
    | OBulkVal n x => sized (d_bulk_append s n x)
    | OBulkImplicit n => sized (d_bulk_append_implicit s n)
    | OResizeImplicit n => void (d_resize_implicit s n)
    | OAt i => valued s (d_at s i)
    | OGet i => valued s (d_get s i)
    | OFront => valued s (d_front s)
    | OBack => valued s (d_back s)
    | OSize => Ret (RSize (dv_size s), s)
    | OEmpty => Ret (RBool (d_empty s), s)
    | OCapacity => Ret (RSize (d_cap s), s)
    end.

  Fixpoint druns (s : dvec) (ops : list dop) : outcome (list dret * dvec) :=
    match ops with
    | [] => Ret ([], s)
    | o :: ops' => let* p := dstep s o in let* q := druns (snd p) ops' in Ret (fst p :: fst q, snd q)
    end.
End DeviceVector.
Arguments dvec A : clear implicits. Arguments dret A : clear implicits. Arguments dop A : clear implicits.
