(** Model of vecmem::copy for one dimensional and jagged vectors
    (core/include/vecmem/utils/impl/copy.ipp, core/src/utils/copy.cpp,
    cuda/src/utils/cuda/copy.cpp). *)
From Verif Require Export Base.

(** ** Memory
    Byte memory; [None] is an address that must not be accessed.  [m_dev] tells device
    memory from host memory.  [m_strict]: the backend checks the copy type, as the CUDA
    and HIP ones do; the host implementation ignores it (src/utils/copy.cpp 26-38). *)
Record cmem := mkM { m_byte : Z -> option Z; m_dev : Z -> bool; m_strict : bool }.

(** Results carry the memory also when an exception is thrown. *)
Definition cm (A : Type) : Type := (outcome A * cmem)%type.
Definition cbind {A B} (r : cm A) (f : A -> cmem -> cm B) : cm B :=
  match r with
  | (Ret a, m) => f a m
  | (Throw e, m) => (Throw e, m)
  | (UB, m) => (UB, m)
  end.

Fixpoint get_bytes (m : cmem) (a : Z) (n : nat) : option (list Z) :=
  match n with
  | 0%nat => Some []
  | S n' => match m_byte m a, get_bytes m (a + 1) n' with Some b, Some l => Some (b :: l) | _, _ => None end
  end.
Definition put_bytes (m : cmem) (a : Z) (bs : list Z) : cmem :=
  mkM (fun x => if (a <=? x) && (x <? a + Z.of_nat (length bs)) then nth_error bs (Z.to_nat (x - a)) else m_byte m x) (m_dev m) (m_strict m).

(** [copy::type::copy_type] (utils/copy.hpp). *)
Inductive cptype := host_to_device | device_to_host | host_to_host | device_to_device | type_unknown.
Definition kind_ok (k : cptype) (src_dev dst_dev : bool) : bool :=
  match k with
  | host_to_device => negb src_dev && dst_dev
  | device_to_host => src_dev && negb dst_dev
  | host_to_host => negb src_dev && negb dst_dev
  | device_to_device => src_dev && dst_dev
  | type_unknown => true
  end.
Definition kind_check (m : cmem) (k : cptype) (src_dev dst_dev : bool) : bool := negb (m_strict m) || kind_ok k src_dev dst_dev.

(** do_copy (src/utils/copy.cpp 26-38; cuda/src/utils/cuda/copy.cpp 35-60).  Nothing
    happens for a size of zero.  A null pointer, an inaccessible byte, or overlapping
    ranges are undefined ([memcpy]); a wrong copy type is reported by the device runtimes
    as an error, which the error check macro turns into an exception.
    Simplification: a block of bytes is taken to lie wholly in host or device memory. *)
Definition do_copy (k : cptype) (n src dst : Z) (m : cmem) : cm unit :=
  if n =? 0 then (Ret tt, m)
  else if (src =? 0) || (dst =? 0) then (UB, m)
  else match get_bytes m src (Z.to_nat n), get_bytes m dst (Z.to_nat n) with
       | Some bs, Some _ =>
         if (src <? dst + n) && (dst <? src + n) then (UB, m)
         else if kind_check m k (m_dev m src) (m_dev m dst) then (Ret tt, put_bytes m dst bs)
         else (Throw runtime_error, m)
       | _, _ => (UB, m)
       end.
(** The same with a local variable (or a host std::vector) as the target or the source. *)
Definition do_copy_out (k : cptype) (n src : Z) (m : cmem) : cm (list Z) :=
  if src =? 0 then (UB, m)
  else match get_bytes m src (Z.to_nat n) with
       | Some bs => if kind_check m k (m_dev m src) false then (Ret bs, m) else (Throw runtime_error, m)
       | None => (UB, m)
       end.
Definition do_copy_in (k : cptype) (bs : list Z) (dst : Z) (m : cmem) : cm unit :=
  match bs with
  | [] => (Ret tt, m)
  | _ => if dst =? 0 then (UB, m)
         else match get_bytes m dst (length bs) with
              | Some _ => if kind_check m k false (m_dev m dst) then (Ret tt, put_bytes m dst bs) else (Throw runtime_error, m)
              | None => (UB, m)
              end
  end.
(** do_memset (src/utils/copy.cpp 40-48; cuda 62-80): the value is converted to a byte. *)
Definition do_memset (n dst value : Z) (m : cmem) : cm unit :=
  if n =? 0 then (Ret tt, m)
  else if dst =? 0 then (UB, m)
  else match get_bytes m dst (Z.to_nat n) with
       | Some _ => (Ret tt, put_bytes m dst (repeat (value mod 256) (Z.to_nat n)))
       | None => (UB, m)
       end.

(** [unsigned int] in memory: four bytes, least significant first. *)
Definition le32 (n : Z) : list Z := [n mod 256; (n / 256) mod 256; (n / 65536) mod 256; (n / 16777216) mod 256].
Definition unle32 (bs : list Z) : Z :=
  match bs with [a; b; c; d] => a + 256 * b + 65536 * c + 16777216 * d | _ => 0 end.
Fixpoint unle32s (n : nat) (bs : list Z) : list Z :=
  match n with 0%nat => [] | S n' => unle32 (firstn 4 bs) :: unle32s n' (skipn 4 bs) end.

(** ** Vector views (containers/data/vector_view.hpp): capacity, pointer to the size (null
    for a view of fixed size) and pointer to the payload. *)
Record vview := mkV { v_cap : Z; v_sizep : Z; v_ptr : Z }.

Section Vector.
  Variable sz : Z.   (* sizeof(TYPE) *)

  (** setup (copy.ipp 28-46). *)
  Definition setup_vector (v : vview) (m : cmem) : cm unit :=
    if (v_sizep v =? 0) || (v_cap v =? 0) then (Ret tt, m) else do_memset 4 (v_sizep v) 0 m.

  (** memset (48-63). *)
  Definition memset_vector (v : vview) (value : Z) (m : cmem) : cm unit :=
    if v_cap v =? 0 then (Ret tt, m) else do_memset (v_cap v * sz) (v_ptr v) value m.

  (** get_size (115-137). *)
  Definition get_size (v : vview) (m : cmem) : cm Z :=
    if v_sizep v =? 0 then (Ret (v_cap v), m)
    else cbind (do_copy_out type_unknown 4 (v_sizep v) m) (fun bs m => (Ret (unle32 bs), m)).

  (** The copy type for the size variable (copy.ipp 513-526): its source is on the host. *)
  Definition size_cptype (k : cptype) : cptype :=
    match k with
    | host_to_device | device_to_device => host_to_device
    | device_to_host | host_to_host => host_to_host
    | type_unknown => type_unknown
    end.

  (** copy_view_impl for vectors (487-539). *)
  Definition copy_vector (k : cptype) (from to : vview) (m : cmem) : cm bool :=
    cbind (get_size from m) (fun n m =>
      if n =? 0 then (Ret false, m)
      else if v_cap to <? n then (Throw length_error, m)
      else cbind (if v_sizep to =? 0 then (Ret tt, m) else do_copy_in (size_cptype k) (le32 n) (v_sizep to) m) (fun _ m =>
           cbind (do_copy k (n * sz) (v_ptr from) (v_ptr to) m) (fun _ m => (Ret true, m)))).

  (** Copy into a std::vector (97-113).  [q] is what [to_vec.data()] returns after
      [to_vec.resize(size)]; the result is the size of the vector. *)
  Definition copy_to_vec (k : cptype) (from : vview) (q : Z) (m : cmem) : cm Z :=
    cbind (get_size from m) (fun n m => cbind (do_copy k (n * sz) (v_ptr from) q m) (fun _ m => (Ret n, m))).

  (** to (65-81).  [p] is the address that the constructor of the (fixed size) buffer gets
      for its payload. *)
  Definition to_buffer (k : cptype) (from : vview) (p : Z) (m : cmem) : cm vview :=
    cbind (get_size from m) (fun n m =>
      let result := mkV n 0 p in
      cbind (setup_vector result m) (fun _ m => cbind (copy_vector k from result m) (fun _ m => (Ret result, m)))).

  (** ** Jagged vectors
      A jagged view is given by its host accessible array of vector views. *)

  (** is_contiguous (727-743): asserts that there is an inner vector. *)
  Fixpoint contiguous_from (v : vview) (l : list vview) : bool :=
    match l with
    | [] => true
    | w :: l' => if v_ptr v + v_cap v * sz =? v_ptr w then contiguous_from w l' else false
    end.
  Definition is_contiguous (l : list vview) : outcome bool :=
    match l with [] => UB | v :: l' => Ret (contiguous_from v l') end.

  (** setup (139-173).  The description of the inner vectors on the device is not
      modelled. *)
  Definition setup_jagged (l : list vview) (m : cmem) : cm unit :=
    match l with
    | [] => (Ret tt, m)
    | v :: _ => if v_sizep v =? 0 then (Ret tt, m) else do_memset (4 * Z.of_nat (length l)) (v_sizep v) 0 m
    end.

  (** memset (175-213). *)
  Definition total_cap (l : list vview) : Z := fold_right (fun v s => v_cap v + s) 0 l.
  Fixpoint memset_first (total : Z) (l : list vview) (value : Z) (m : cmem) : cm unit :=
    match l with
    | [] => (Ret tt, m)
    | v :: l' => if negb (v_cap v =? 0) && negb (v_ptr v =? 0) then do_memset (total * sz) (v_ptr v) value m
                 else memset_first total l' value m
    end.
  Fixpoint memset_each (l : list vview) (value : Z) (m : cmem) : cm unit :=
    match l with
    | [] => (Ret tt, m)
    | v :: l' => cbind (do_memset (v_cap v * sz) (v_ptr v) value m) (fun _ m => memset_each l' value m)
    end.
  Definition memset_jagged (l : list vview) (value : Z) (m : cmem) : cm unit :=
    match is_contiguous l with
    | Ret true => memset_first (total_cap l) l value m
    | Ret false => memset_each l value m
    | _ => (UB, m)
    end.

  (** get_sizes_impl (693-725): the sizes are read with one copy, starting at the first
      resizable inner vector of non-zero capacity. *)
  Fixpoint get_sizes_from (l : list vview) (m : cmem) : cm (option (list Z)) :=
    match l with
    | [] => (Ret None, m)
    | v :: l' =>
      if negb (v_cap v =? 0) && negb (v_sizep v =? 0) then
        cbind (do_copy_out type_unknown (4 * Z.of_nat (length l)) (v_sizep v) m)
              (fun bs m => (Ret (Some (unle32s (length l) bs)), m))
      else cbind (get_sizes_from l' m) (fun r m => (Ret (option_map (cons 0) r), m))
    end.
  Definition get_sizes (l : list vview) (m : cmem) : cm (list Z) :=
    cbind (get_sizes_from l m) (fun r m => match r with Some s => (Ret s, m) | None => (Ret (map v_cap l), m) end).

  (** set_sizes (278-328). *)
  Fixpoint check_sizes (s : list Z) (l : list vview) (perform : bool) : outcome bool :=
    match s, l with
    | n :: s', v :: l' =>
      if v_cap v <? n then Throw length_error
      else if v_sizep v =? 0 then check_sizes s' l' false
      else if perform then check_sizes s' l' true
      else Throw runtime_error
    | _, _ => Ret perform
    end.
  Definition set_sizes (s : list Z) (l : list vview) (m : cmem) : cm unit :=
    match s, l with
    | [], [] => (Ret tt, m)
    | _, _ =>
      if negb (Nat.eqb (length s) (length l)) then (Throw length_error, m)
      else match check_sizes s l true with
           | Throw e => (Throw e, m)
           | Ret true => do_copy_in type_unknown (flat_map le32 s) (match l with v :: _ => v_sizep v | [] => 0 end) m
           | _ => (Ret tt, m)
           end
    end.

  (** copy_views_impl (609-648). *)
  Fixpoint copy_views (k : cptype) (s : list Z) (from to : list vview) (m : cmem) : cm unit :=
    match s, from, to with
    | n :: s', f :: from', t :: to' =>
      if n =? 0 then copy_views k s' from' to' m
      else if negb (v_ptr f =? 0) && negb (v_ptr t =? 0) && (n <=? v_cap f) && (n <=? v_cap t)
      then cbind (do_copy k (n * sz) (v_ptr f) (v_ptr t) m) (fun _ m => copy_views k s' from' to' m)
      else (UB, m)
    | [], _, _ => (Ret tt, m)
    | _, _, _ => (UB, m)
    end.

  (** copy_views_contiguous_impl (650-691): the sizes given to it are the capacities. *)
  Fixpoint copy_first (k : cptype) (total : Z) (s : list Z) (from to : list vview) (m : cmem) : cm unit :=
    match s, from, to with
    | n :: s', f :: from', t :: to' =>
      if n =? 0 then copy_first k total s' from' to' m
      else if negb (v_ptr f =? 0) && negb (v_ptr t =? 0) then do_copy k total (v_ptr f) (v_ptr t) m
      else (UB, m)
    | [], _, _ => (Ret tt, m)
    | _, _, _ => (UB, m)
    end.
  Definition copy_views_contiguous (k : cptype) (s : list Z) (from to : list vview) (m : cmem) : cm unit :=
    copy_first k (fold_right Z.add 0 s * sz) s from to m.

  (** copy_view_impl for jagged vectors (541-607). *)
  Fixpoint caps_match (from to : list vview) : bool :=
    match from, to with
    | f :: from', t :: to' => (v_cap f =? v_cap t) && caps_match from' to'
    | _, _ => true
    end.
  Definition copy_jagged (k : cptype) (from to : list vview) (m : cmem) : cm bool :=
    if Nat.ltb (length to) (length from) then (Throw length_error, m)
    else match from with
    | [] => (Ret false, m)
    | _ =>
      match is_contiguous from, is_contiguous (firstn (length from) to) with
      | Ret fc, Ret tc =>
        cbind (get_sizes from m) (fun s m =>
        cbind (set_sizes s to m) (fun _ m =>
        cbind (if fc && tc && caps_match from to then copy_views_contiguous k (map v_cap from) from to m
               else copy_views k s from to m) (fun _ m => (Ret true, m))))
      | _, _ => (UB, m)
      end
    end.
End Vector.
