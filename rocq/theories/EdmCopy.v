(** Model of the functions of vecmem::copy for SoA containers
    (core/include/vecmem/utils/impl/copy.ipp lines 330-485 and 745-926). *)
From Verif Require Import Base Placement EdmBuffer Copy.

(** edm::view: the views of the variables, and the raw memory of sizes and payload.
    For host containers (edm::data) the raw memory views are null
    (edm/impl/view.ipp lines 20-28).  The layout is dealt with in [EdmBuffer]. *)
Record edm_view := mkEV { ev_cap : Z; ev_size : mview; ev_payload : mview; ev_vars : list eview }.
Definition buffer_view (e : ebuf) : edm_view := mkEV (eb_cap e) (eb_size e) (eb_payload e) (eb_views e).

(** The vector views of [Placement], with contents. *)
Definition cv (v : Placement.vview) : vview := mkV (Placement.v_cap v) (Placement.v_size v) (Placement.v_ptr v).
(** vector_view<char> on raw memory: not resizable. *)
Definition raw_view (r : mview) : vview := mkV (m_len r) 0 (m_ptr r).

Section EdmCopy.
  Variable vars : list var.   (* the schema *)
  Definition jagged_schema : bool := existsb is_jagged vars.

  (** setup, lines 346-350.  The copy of the layout (lines 338-344) is a vector copy
      between the host layout and the device layout. *)
  Definition edm_setup (e : edm_view) (m : cmem) : cm unit :=
    if ev_cap e =? 0 then (Ret tt, m)
    else if m_ptr (ev_size e) =? 0 then (Ret tt, m)
    else if m_len (ev_size e) =? 0 then (UB, m)
    else do_memset (m_len (ev_size e)) (m_ptr (ev_size e)) 0 m.

  (** memset_impl, lines 745-763, and memset, 362-376. *)
  Fixpoint memset_vars (vs : list var) (es : list eview) (value : Z) (m : cmem) : cm unit :=
    match vs, es with
    | v :: vs', e :: es' =>
      cbind (match e with
             | EScalar p => do_memset (ve_sz v) p value m
             | EVector x => memset_vector (ve_sz v) (cv x) value m
             | EJagged _ _ _ inner => memset_jagged (ve_sz v) (map cv inner) value m
             end) (fun _ m => memset_vars vs' es' value m)
    | _, _ => (Ret tt, m)
    end.
  Definition edm_memset (e : edm_view) (value : Z) (m : cmem) : cm unit :=
    if negb (m_ptr (ev_payload e) =? 0) then memset_vector 1 (raw_view (ev_payload e)) value m
    else memset_vars vars (ev_vars e) value m.

  (** get_size, lines 448-485. *)
  Definition edm_get_size (e : edm_view) (m : cmem) : cm Z :=
    if jagged_schema then (Ret (ev_cap e), m)
    else if m_ptr (ev_size e) =? 0 then (Ret (ev_cap e), m)
    else if negb (m_len (ev_size e) =? 4) then (UB, m)
    else cbind (do_copy_out type_unknown 4 (m_ptr (ev_size e)) m) (fun bs m => (Ret (unle32 bs), m)).

  (** copy_sizes_impl, lines 844-902: for a target with, and a source without sizes. *)
  Fixpoint copy_sizes_vars (fs ts : list eview) (m : cmem) : cm unit :=
    match fs, ts with
    | EJagged _ _ _ f :: fs', EJagged _ _ _ t :: ts' =>
      cbind (get_sizes (map cv f) m) (fun s m => cbind (set_sizes s (map cv t) m) (fun _ m => copy_sizes_vars fs' ts' m))
    | _ :: fs', _ :: ts' => copy_sizes_vars fs' ts' m
    | _, _ => (Ret tt, m)
    end.
  Definition copy_sizes (k : cptype) (from to : edm_view) (m : cmem) : cm unit :=
    if jagged_schema then copy_sizes_vars (ev_vars from) (ev_vars to) m
    else do_copy_in (size_cptype k) (le32 (ev_cap from)) (m_ptr (ev_size to)) m.

  (** copy_payload_impl, lines 904-926. *)
  Fixpoint copy_vars (k : cptype) (vs : list var) (fs ts : list eview) (m : cmem) : cm unit :=
    match vs, fs, ts with
    | v :: vs', f :: fs', t :: ts' =>
      cbind (match f, t with
             | EScalar p, EScalar q => do_copy k (ve_sz v) p q m
             | EVector x, EVector y => cbind (copy_vector (ve_sz v) k (cv x) (cv y) m) (fun _ m => (Ret tt, m))
             | EJagged _ _ _ x, EJagged _ _ _ y => cbind (copy_jagged (ve_sz v) k (map cv x) (map cv y) m) (fun _ m => (Ret tt, m))
             | _, _ => (UB, m)
             end) (fun _ m => copy_vars k vs' fs' ts' m)
    | _, _, _ => (Ret tt, m)
    end.

  (** operator(), lines 378-432. *)
  Definition edm_copy (k : cptype) (from to : edm_view) (m : cmem) : cm unit :=
    if negb (m_ptr (ev_payload from) =? 0) && negb (m_ptr (ev_payload to) =? 0) && (m_len (ev_payload from) =? m_len (ev_payload to)) then
      if m_len (ev_payload from) =? 0 then (Ret tt, m)
      else cbind (copy_vector 1 k (raw_view (ev_payload from)) (raw_view (ev_payload to)) m) (fun _ m =>
        if m_ptr (ev_size to) =? 0 then (Ret tt, m)
        else if negb (m_ptr (ev_size from) =? 0) then
          if negb (m_len (ev_size from) =? m_len (ev_size to)) then (Throw length_error, m)
          else cbind (copy_vector 1 k (raw_view (ev_size from)) (raw_view (ev_size to)) m) (fun _ m => (Ret tt, m))
        else copy_sizes k from to m)
    else copy_vars k vars (ev_vars from) (ev_vars to) m.
End EdmCopy.
