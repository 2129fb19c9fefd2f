(** Copies that create or resize their target: copy::to for jagged vectors, and the copies
    into host containers (core/include/vecmem/utils/impl/copy.ipp lines 215-234, 250-268,
    434-446, 765-842), and the setup of jagged vectors with their description on the device
    (lines 139-173). *)
From Verif Require Import Base Placement EdmBuffer Copy EdmCopy.

Section Vecs.
  Variable sz : Z.   (* sizeof(TYPE) *)

  (** vector_view::size called by host code (containers/impl/vector_view.ipp lines 74-78):
      dereferences the pointer to the size.  Device memory must not be accessed. *)
  Definition host_read_size (v : vview) (m : cmem) : outcome Z :=
    if v_sizep v =? 0 then Ret (v_cap v)
    else if m_dev m (v_sizep v) then UB
    else match get_bytes m (v_sizep v) 4 with Some bs => Ret (unle32 bs) | None => UB end.
  (** ::get_sizes of containers/impl/jagged_vector_buffer.ipp lines 24-32. *)
  Fixpoint host_read_sizes (l : list vview) (m : cmem) : outcome (list Z) :=
    match l with
    | [] => Ret []
    | v :: l' => let* n := host_read_size v m in let* s := host_read_sizes l' m in Ret (n :: s)
    end.

  (** The inner views of the fixed size buffer for the capacities [s], whose payload is at
      [d] (jagged_vector_buffer.ipp lines 116-129). *)
  Definition buffer_views (d : Z) (s : list Z) : list vview := map cv (inner_views sz 0 d 0 0 s).

  (** to (lines 215-234).  The result is the new buffer.  The description of the inner
      vectors on the device is dealt with in [setup_described]. *)
  Definition to_jagged (k : cptype) (from : list vview) (d : Z) (m : cmem) : cm (list vview) :=
    match host_read_sizes from m with
    | Ret s =>
        let result := buffer_views d s in
        cbind (setup_jagged result m) (fun _ m => cbind (copy_jagged sz k from result m) (fun _ m => (Ret result, m)))
    | Throw e => (Throw e, m)
    | UB => (UB, m)
    end.

  (** Copy into a vector of vectors (lines 250-268).  [qs] is what [data()] of the inner
      vectors returns after they have been resized; the result are their sizes. *)
  Fixpoint vec_views (s qs : list Z) : list vview :=
    match s, qs with n :: s', q :: qs' => mkV n 0 q :: vec_views s' qs' | _, _ => [] end.
  Definition copy_to_vecs (k : cptype) (from : list vview) (qs : list Z) (m : cmem) : cm (list Z) :=
    cbind (get_sizes from m) (fun s m => cbind (copy_jagged sz k from (vec_views s qs) m) (fun _ m => (Ret s, m))).
End Vecs.

(** The array of views in memory: 4 bytes capacity, 4 bytes padding, pointer to the size,
    pointer to the elements (containers/data/vector_view.hpp lines 133-143, 64 bit
    pointers).  The padding is taken to be zero. *)
Definition le64 (n : Z) : list Z := le32 (n mod 2 ^ 32) ++ le32 (n / 2 ^ 32).
Definition view_bytes_of (v : vview) : list Z := le32 (v_cap v) ++ [0; 0; 0; 0] ++ le64 (v_sizep v) ++ le64 (v_ptr v).

(** setup (copy.ipp lines 139-173) of a jagged view with the description of its inner
    vectors at [host_ptr] for the host and at [ptr] for the device. *)
Definition setup_described (l : list vview) (host_ptr ptr : Z) (m : cmem) : cm unit :=
  match l with
  | [] => (Ret tt, m)
  | _ => cbind (setup_jagged l m) (fun _ m =>
           if ptr =? host_ptr then (Ret tt, m)
           else do_copy host_to_device (Z.of_nat (length l) * 24) host_ptr ptr m)
  end.

(** ** edm::host as the target *)

(** Sizes of the variables of the host container. *)
Inductive hsize := HSScalar | HSVector (n : Z) | HSJagged (s : list Z).
(** Addresses of their elements after resizing. *)
Inductive hplace := HPScalar (q : Z) | HPVector (q : Z) | HPJagged (desc : Z) (qs : list Z).

Section EdmHostCopy.
  Variable vars : list var.

  (** The assert of lines 775-776. *)
  Definition host_target (k : cptype) : bool :=
    match k with device_to_host | host_to_host | type_unknown => true | _ => false end.

  (** resize_impl, jagged case (lines 807-840). *)
  Fixpoint resize_vars (fs : list eview) (m : cmem) : cm (list hsize) :=
    match fs with
    | [] => (Ret [], m)
    | f :: fs' =>
        cbind (match f with
               | EScalar _ => (Ret HSScalar, m)
               | EVector x => cbind (get_size (cv x) m) (fun n m => (Ret (HSVector n), m))
               | EJagged _ _ _ x => cbind (get_sizes (map cv x) m) (fun s m => (Ret (HSJagged s), m))
               end) (fun h m => cbind (resize_vars fs' m) (fun hs m => (Ret (h :: hs), m)))
    end.
  (** resize_impl (lines 765-842); without jagged vectors all vectors get one size (lines
      778-805, host_traits.hpp 134-150). *)
  Definition edm_resize (k : cptype) (from : edm_view) (m : cmem) : cm (list hsize) :=
    if negb (host_target k) then (UB, m)
    else if jagged_schema vars then resize_vars (ev_vars from) m
    else cbind (if m_ptr (ev_size from) =? 0 then (Ret (ev_cap from), m)
                else if negb (m_len (ev_size from) =? 4) then (UB, m)
                else cbind (do_copy_out k 4 (m_ptr (ev_size from)) m) (fun bs m => (Ret (unle32 bs), m)))
         (fun n m => (Ret (map (fun v => match vk v with KScalar => HSScalar | _ => HSVector n end) vars), m)).

  (** host::size (edm/impl/host.ipp lines 27-38, host_traits.hpp 93-126): the common size.
      A schema without vectors is rejected by the compiler. *)
  Fixpoint outer_sizes (hs : list hsize) : list Z :=
    match hs with
    | [] => []
    | HSScalar :: hs' => outer_sizes hs'
    | HSVector n :: hs' => n :: outer_sizes hs'
    | HSJagged s :: hs' => Z.of_nat (length s) :: outer_sizes hs'
    end.
  Definition host_size (hs : list hsize) : outcome Z :=
    match outer_sizes hs with
    | [] => UB
    | n :: ns => if forallb (Z.eqb n) ns then Ret n else Throw length_error
    end.

  (** get_data (edm/impl/host.ipp lines 166-229, vector.ipp 12-17, jagged_vector.ipp 15-38). *)
  Fixpoint host_views (hs : list hsize) (ps : list hplace) : list eview :=
    match hs, ps with
    | HSScalar :: hs', HPScalar q :: ps' => EScalar q :: host_views hs' ps'
    | HSVector n :: hs', HPVector q :: ps' => EVector (mkView (n mod 2 ^ 32) 0 q) :: host_views hs' ps'
    | HSJagged s :: hs', HPJagged d qs :: ps' =>
        EJagged (Z.of_nat (length s)) d d
          (map (fun p => mkView (fst p mod 2 ^ 32) 0 (snd p)) (combine s qs)) :: host_views hs' ps'
    | _, _ => []
    end.

  (** operator() (copy.ipp lines 434-446): the sizes of the variables afterwards. *)
  Definition edm_to_host (k : cptype) (from : edm_view) (ps : list hplace) (m : cmem) : cm (list hsize) :=
    cbind (edm_resize k from m) (fun hs m =>
      match host_size hs with
      | Ret n =>
          cbind (edm_copy vars k from (mkEV (n mod 2 ^ 32) (mkMem 0 0) (mkMem 0 0) (host_views hs ps)) m)
                (fun _ m => (Ret hs, m))
      | Throw e => (Throw e, m)
      | UB => (UB, m)
      end).
End EdmHostCopy.
