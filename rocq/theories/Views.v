(** Views of vectors and jagged vectors, and how get_data makes them.

    Sources (core/include/vecmem/containers): impl/vector_view.ipp lines 15-73 (constructors,
    conversion, assignment, comparison), impl/jagged_vector_view.ipp lines 13-83, impl/vector.ipp
    lines 12-28 and impl/jagged_vector.ipp lines 15-121 (get_data), impl/jagged_vector_data.ipp
    lines 13-66; for reading: impl/jagged_device_vector.ipp lines 16-19 and 44-64, and
    impl/device_vector.ipp lines 20-30 and 64-94.

    Simplifications: a std::vector is given by the pair of [size()] and [data()]; adding
    const to the element type does not change the representation of a view, so that a
    conversion copies the three members. *)
From Verif Require Export Base Copy CopyHost UniquePtr.

(** ** One dimensional views *)

(** The two constructors, vector_view.ipp lines 15-26. *)
Definition view_fixed (size ptr : Z) : vview := mkV size 0 ptr.
Definition view_resizable (capacity size ptr : Z) : vview := mkV capacity size ptr.
(** Conversion and assignment, lines 28-51. *)
Definition view_convert (parent : vview) : vview := mkV (v_cap parent) (v_sizep parent) (v_ptr parent).
Definition view_assign (v rhs : vview) : vview := mkV (v_cap rhs) (v_sizep rhs) (v_ptr rhs).
(** operator== and operator!=, lines 53-73. *)
Definition view_eq (v rhs : vview) : bool :=
  (v_cap v =? v_cap rhs) && (v_sizep v =? v_sizep rhs) && (v_ptr v =? v_ptr rhs).
Definition view_ne (v rhs : vview) : bool := negb (view_eq v rhs).

(** ** Jagged views *)
Record jview := mkJ { j_size : Z; j_ptr : Z; j_host : Z }.
(** jagged_vector_view.ipp lines 13-19. *)
Definition jview_make (size ptr host_ptr : Z) : jview := mkJ size ptr (if host_ptr =? 0 then ptr else host_ptr).
(** Lines 21-55. *)
Definition jview_convert (parent : jview) : jview := mkJ (j_size parent) (j_ptr parent) (j_host parent).
Definition jview_assign (v rhs : jview) : jview := mkJ (j_size rhs) (j_ptr rhs) (j_host rhs).
(** Lines 57-83. *)
Definition jview_eq (v rhs : jview) : bool :=
  (j_size v =? j_size rhs) && (j_ptr v =? j_ptr rhs) && (j_host v =? j_host rhs).
Definition jview_ne (v rhs : jview) : bool := negb (jview_eq v rhs).

(** ** Reading through views, as device code does *)
Definition unle64 (bs : list Z) : Z := unle32 (firstn 4 bs) + 2 ^ 32 * unle32 (firstn 4 (skipn 4 bs)).
Definition view_of_bytes (bs : list Z) : vview :=
  mkV (unle32 (firstn 4 bs)) (unle64 (firstn 8 (skipn 8 bs))) (unle64 (firstn 8 (skipn 16 bs))).
(** device_vector::size. *)
Definition dv_size (v : vview) (m : cmem) : outcome Z :=
  if v_sizep v =? 0 then Ret (v_cap v)
  else match get_bytes m (v_sizep v) 4 with Some bs => Ret (unle32 bs) | None => UB end.
(** device_vector::at: the address that the reference refers to. *)
Definition dv_at (sz : Z) (v : vview) (j : Z) (m : cmem) : outcome Z :=
  let* n := dv_size v m in assert (j <? n) (Ret (v_ptr v + j * sz)).
(** jagged_device_vector::at: the view that the returned device_vector is made from. *)
Definition jdv_at (v : jview) (i : Z) (m : cmem) : outcome vview :=
  assert (i <? j_size v)
    (match get_bytes m (j_ptr v + i * 24) 24 with Some bs => Ret (view_of_bytes bs) | None => UB end).

(** ** get_data *)

(** vector.ipp lines 12-28: the size is cast to [unsigned int]. *)
Definition vector_data (vec : Z * Z) : vview := view_fixed (fst vec mod 2 ^ 32) (snd vec).

(** jagged_vector_data: the allocation (jagged_vector_data.ipp lines 13-27) and the
    constructor (lines 43-66).  [res]: the answer of the memory resource.  The default
    constructors of the views leave the memory as it is. *)
Definition jdata_new (n : nat) (res : option Z) : outcome (jview * uptr) * list ev :=
  match n with
  | O => (Ret (mkJ 0 0 0, u_null), [])
  | _ => match make_unique_alloc 24 n res with
         | (Ret u, l) => (Ret (mkJ (Z.of_nat n) (u_ptr u) (u_ptr u), u), l)
         | (Throw e, l) => (Throw e, l)
         | (UB, l) => (UB, l)
         end
  end.
(** The destructor. *)
Definition jdata_destroy (d : jview * uptr) : list ev := u_destroy (snd d).

(** The loop over the inner vectors, jagged_vector.ipp lines 33-38: assignments through
    [host_ptr()]. *)
Fixpoint jdata_fill (p : Z) (vecs : list (Z * Z)) (m : cmem) : cm unit :=
  match vecs with
  | [] => (Ret tt, m)
  | v :: vecs' =>
      match get_bytes m p 24 with
      | Some _ => jdata_fill (p + 24) vecs' (put_bytes m p (view_bytes_of (vector_data v)))
      | None => (UB, m)
      end
  end.
(** get_data for jagged vectors, lines 15-42 (and the three other variants, which differ
    in constness and in where the memory resource comes from). *)
Definition jagged_get_data (vecs : list (Z * Z)) (res : option Z) (m : cmem) : outcome (jview * uptr) * list ev * cmem :=
  match jdata_new (length vecs) res with
  | (Ret (v, u), l) => match jdata_fill (j_host v) vecs m with
                       | (Ret _, m') => (Ret (v, u), l, m')
                       | (Throw e, m') => (Throw e, l ++ u_destroy u, m')
                       | (UB, m') => (UB, l, m')
                       end
  | (Throw e, l) => (Throw e, l, m)
  | (UB, l) => (UB, l, m)
  end.
