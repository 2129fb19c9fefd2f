(** Model of edm::buffer: core/include/vecmem/edm/impl/buffer.ipp and
    core/include/vecmem/edm/details/buffer_traits.hpp. *)
From Verif Require Import Base IntMath Align Placement.

(** A variable of the schema: its kind, and size and alignment of its TYPE. *)
Inductive vkind := KScalar | KVector | KJagged.
Record var := mkVar { vk : vkind; ve_sz : Z; ve_al : Z }.
Definition is_jagged (v : var) : bool := match vk v with KJagged => true | _ => false end.

(** buffer_traits.hpp: payload_size, lines 37-39, 61-64, 89-93; layout_size, lines
    42-44, 67-69, 96-99. *)
Definition payload_size (caps : list Z) (v : var) : Z :=
  match vk v with
  | KScalar => 1
  | KVector => Z.of_nat (length caps)
  | KJagged => wrap64 (total caps)
  end.
Definition layout_size (caps : list Z) (v : var) : Z :=
  match vk v with KJagged => Z.of_nat (length caps) | _ => 0 end.

(** The type arguments of aligned_multiple_placement in buffer.ipp: the layout type
    (details/view_traits.hpp lines 38, 45, 52) is [int], or vector_view for jagged
    vectors; the payload type is TYPE; the size type is [unsigned int]. *)
Definition size_sect (caps : list Z) (v : var) : sect := mkSect 4 4 (layout_size caps v).
Definition layout_sect (caps : list Z) (v : var) : sect :=
  match vk v with
  | KJagged => mkSect 24 8 (layout_size caps v)
  | _ => mkSect 4 4 (layout_size caps v)
  end.
Definition payload_sect (caps : list Z) (v : var) : sect := mkSect (ve_sz v) (ve_al v) (payload_size caps v).

(** A vector_view<char> on raw memory. *)
Record mview := mkMem { m_len : Z; m_ptr : Z }.

(** buffer_traits.hpp lines 174-191 and 193-211. *)
Fixpoint find_first (ps : list Z) : Z :=
  match ps with [] => 0 | p :: ps' => if p =? 0 then find_first ps' else p end.
Fixpoint find_last_rev (l : list (Z * sect)) : Z :=
  match l with
  | [] => 0
  | (p, t) :: l' => if p =? 0 then find_last_rev l' else p + s_esz t * s_n t
  end.
Definition find_last (ps : list Z) (ts : list sect) : Z := find_last_rev (rev (combine ps ts)).
(** Lines 213-234 and 236-257: the length is cast to [unsigned int]. *)
Definition find_view (ps : list Z) (ts : list sect) : mview :=
  mkMem (wrap32 (find_last ps ts - find_first ps)) (find_first ps).

(** The views of the variables. A jagged view comes with the inner views written to
    the (host) layout memory. *)
Inductive eview :=
| EScalar (p : Z)
| EVector (v : vview)
| EJagged (n layout host_layout : Z) (inner : list vview).

(** make_view, lines 47-53, 72-80, 102-126; the inner views are written as in
    jagged_vector_buffer.  The host pointer of the view falls back to the layout
    (jagged_vector_view.ipp lines 15-19). *)
Definition make_view (caps : list Z) (v : var) (size layout host_layout ptr : Z) : eview :=
  match vk v with
  | KScalar => EScalar ptr
  | KVector => EVector (mkView (wrap32 (Z.of_nat (length caps))) size ptr)
  | KJagged => EJagged (wrap32 (Z.of_nat (length caps))) layout
                 (if host_layout =? 0 then layout else host_layout)
                 (inner_views (ve_sz v) size ptr 0 0 caps)
  end.

(** make_buffer_views, lines 131-143 and 145-172, over parallel lists. *)
Fixpoint make_views (caps : list Z) (vars : list var) (sizes layouts host_layouts payloads : list Z) : list eview :=
  match vars, sizes, layouts, host_layouts, payloads with
  | v :: vars', s :: sizes', l :: layouts', h :: host_layouts', p :: payloads' =>
      make_view caps v s l h p :: make_views caps vars' sizes' layouts' host_layouts' payloads'
  | _, _, _, _, _ => []
  end.

Record ebuf := mkEBuf { eb_cap : Z; eb_size : mview; eb_payload : mview; eb_layout : mview; eb_host_layout : mview;
                        eb_views : list eview; eb_mem : block; eb_host_mem : option block }.

(** buffer.ipp lines 115-137 and 218-242, common to both functions: the memory
    views, the host layout and the views.  [mem] has been assigned to [m_memory]
    already, and is released if the host allocation throws. *)
Definition edm_finish (vars : list var) (caps : list Z) (host : bool) (mem : block) (msize : mview)
    (sizes layouts payloads : list Z) (w hw : world) : outcome ebuf * world * world :=
  let ls := map (layout_sect caps) vars in
  let mlayout := find_view layouts ls in
  let mpayload := find_view payloads (map (payload_sect caps) vars) in
  let cap := wrap32 (Z.of_nat (length caps)) in
  if host then
    match placement hw ls with
    | (Ret (hb, hl), hw') =>
        (Ret (mkEBuf cap msize mpayload mlayout (find_view hl ls)
                     (make_views caps vars sizes layouts hl payloads) mem (Some hb)), w, hw')
    | (Throw e, hw') => (Throw e, free_bytes w mem, hw')
    | (UB, hw') => (UB, w, hw')
    end
  else (Ret (mkEBuf cap msize mpayload mlayout mlayout
                    (make_views caps vars sizes layouts (map (fun _ => 0) vars) payloads) mem None), w, hw).

(** setup_fixed, lines 82-138. *)
Definition edm_fixed (vars : list var) (caps : list Z) (host : bool) (w hw : world) : outcome ebuf * world * world :=
  let k := length vars in
  match placement w (map (layout_sect caps) vars ++ map (payload_sect caps) vars) with
  | (Ret (mem, ps), w') =>
      edm_finish vars caps host mem (mkMem 0 0) (map (fun _ => 0) vars) (firstn k ps) (skipn k ps) w' hw
  | (Throw e, w') => (Throw e, w', hw)
  | (UB, w') => (UB, w', hw)
  end.

(** setup_resizable, lines 140-243.  With jagged vectors (lines 170-193) every
    variable gets [layout_size] counters; without (lines 194-216) there is one. *)
Definition edm_resizable (vars : list var) (caps : list Z) (host : bool) (w hw : world) : outcome ebuf * world * world :=
  let k := length vars in
  let ls := map (layout_sect caps) vars in
  let ps := map (payload_sect caps) vars in
  if existsb is_jagged vars then
    match placement w (map (size_sect caps) vars ++ ls ++ ps) with
    | (Ret (mem, l), w') =>
        let sizes := firstn k l in
        let msize := mkMem (wrap32 (fold_right (fun v n => layout_size caps v + n) 0 vars * 4)) (find_first sizes) in
        edm_finish vars caps host mem msize
          (map (fun x => if is_jagged (fst x) then snd x else 0) (combine vars sizes))
          (firstn k (skipn k l)) (skipn k (skipn k l)) w' hw
    | (Throw e, w') => (Throw e, w', hw)
    | (UB, w') => (UB, w', hw)
    end
  else
    match placement w (mkSect 4 4 1 :: ls ++ ps) with
    | (Ret (mem, size :: l), w') =>
        edm_finish vars caps host mem (mkMem 4 size) (map (fun _ => size) vars) (firstn k l) (skipn k l) w' hw
    | (Ret _, w') => (UB, w', hw)
    | (Throw e, w') => (Throw e, w', hw)
    | (UB, w') => (UB, w', hw)
    end.

(** The constructors, lines 23-48 and 50-80.  The first one passes a vector of
    [capacity] zeros and no host resource. *)
Definition edm_buffer (vars : list var) (caps : list Z) (resizable host : bool) (w hw : world) :=
  if resizable then edm_resizable vars caps host w hw else edm_fixed vars caps host w hw.

(** Destruction of the members in reverse order. *)
Definition edm_destroy (e : ebuf) (w hw : world) : world * world :=
  (free_bytes w (eb_mem e), free_opt hw (eb_host_mem e)).
