(** Model of containers/impl/aligned_multiple_placement.ipp, vector_buffer.ipp and
    jagged_vector_buffer.ipp (all under core/include/vecmem/containers/impl).

    Only addresses are modelled here; contents of the memory are not touched by
    these functions, except for the inner views of a jagged buffer, which are
    returned as a list.  Element types are given by [sizeof] and [alignof]. *)
From Verif Require Import Base IntMath Align.

(** Number of values of [unsigned int] (32-bit), the [size_type] of vector_view. *)
Definition wrap32 (x : Z) : Z := x mod 2 ^ 32.

(** A type argument with its count. *)
Record sect := mkSect { s_esz : Z; s_al : Z; s_n : Z }.

(** aligned_multiple_placement.ipp lines 45-133.  [p], [q]: current pointer and
    remaining space.  The assertion of line 82 is modelled as undefined behaviour
    when it fails. *)
Fixpoint placement_helper (p q : Z) (ts : list sect) : outcome (list Z) :=
  match ts with
  | [] => Ret []
  | t :: ts' =>
      let size := wrap64 (s_esz t * s_n t) in
      if 0 <? size then
        match std_align (s_al t) size p q with
        | None => UB
        | Some (p', q') =>
            let* rest := placement_helper (wrap64 (p' + size)) (wrap64 (q' - size)) ts' in
            Ret (p' :: rest)
        end
      else
        let* rest := placement_helper p q ts' in Ret (0 :: rest)
  end.

(** Lines 160 and 175-177: the largest alignment, and the number of bytes. *)
Definition placement_align (ts : list sect) : Z := fold_right (fun t m => Z.max (s_al t) m) 0 ts.
Definition placement_bytes (ts : list sect) : Z :=
  wrap64 (fold_right (fun t m => s_n t * s_esz t + m) 0 ts + Z.of_nat (length ts) * placement_align ts).

(** make_unique_alloc<T[]>(r, n) (core/include/vecmem/memory/unique_ptr.hpp lines
    224-256) with [s = n * sizeof(T)] given; [memory_resource::allocate(0)] is
    nullptr without a call to the resource.  The result is the owned block. *)
Definition alloc_bytes (w : world) (s : Z) : outcome block * world :=
  if s =? 0 then (Ret (mkBlock 0 0 max_align), w)
  else let '(r, w') := up_alloc w s max_align in
       match r with Some p => (Ret (mkBlock p s max_align), w') | None => (Throw bad_alloc, w') end.
(** Destruction of the unique pointer. *)
Definition free_bytes (w : world) (b : block) : world :=
  if bptr b =? 0 then w else up_free w (bptr b) (bsize b) (balign b).

(** Lines 135-226.  The result is the owned block and one pointer per type. *)
Definition placement (w : world) (ts : list sect) : outcome (block * list Z) * world :=
  let bytes := placement_bytes ts in
  let '(r, w') := alloc_bytes w bytes in
  match r with
  | Ret b => (match placement_helper (bptr b) bytes ts with
              | Ret ps => Ret (b, ps)
              | Throw e => Throw e
              | UB => UB
              end, w')
  | Throw e => (Throw e, w')
  | UB => (UB, w')
  end.

(** data::vector_view (containers/data/vector_view.hpp lines 131-138): capacity,
    pointer to the size (0: none), pointer to the elements. *)
Record vview := mkView { v_cap : Z; v_size : Z; v_ptr : Z }.

(** vector_buffer.ipp lines 27-41; [esz], [eal]: size and alignment of TYPE.  The
    owned block is [None] if nothing was allocated. *)
Definition vector_buffer (esz eal cap : Z) (resizable : bool) (w : world)
  : outcome (vview * option block) * world :=
  if cap =? 0 then (Ret (mkView cap 0 0, None), w)
  else match placement w [mkSect 4 4 (if resizable then 1 else 0); mkSect esz eal cap] with
       | (Ret (b, [s; d]), w') => (Ret (mkView cap s d, Some b), w')
       | (Ret _, w') => (UB, w')
       | (Throw e, w') => (Throw e, w')
       | (UB, w') => (UB, w')
       end.

(** [sizeof(vector_view<TYPE>)] on a 64-bit platform. *)
Definition view_bytes : Z := 24.

(** jagged_vector_buffer.ipp lines 34-49. *)
Definition alloc_outer (w : world) (n : Z) : outcome block * world :=
  if n =? 0 then (Ret (mkBlock 0 0 max_align), w) else alloc_bytes w (wrap64 (n * view_bytes)).

(** Lines 113-128: the views written to the host accessible memory.  [off] is
    [ptrdiff]; [static_cast<unsigned int>(capacities[i])] drops the upper bits. *)
Fixpoint inner_views (esz header data : Z) (i off : Z) (caps : list Z) : list vview :=
  match caps with
  | [] => []
  | c :: caps' =>
      mkView (wrap32 c) (if header =? 0 then 0 else header + 4 * i) (data + esz * off)
      :: inner_views esz header data (i + 1) (off + c) caps'
  end.

Record jbuf := mkJBuf { jb_ptr : Z; jb_host_ptr : Z; jb_views : list vview;
                        jb_outer : block; jb_host : block; jb_inner : option block }.

(** [std::accumulate] over the capacities, lines 92-93, in [std::size_t]. *)
Definition total (caps : list Z) : Z := fold_right Z.add 0 caps.

(** Lines 94-106: the inner memory. *)
Definition jagged_inner (esz eal : Z) (caps : list Z) (resizable : bool) (w : world)
  : outcome (Z * Z * option block) * world :=
  let n := Z.of_nat (length caps) in
  let t := wrap64 (total caps) in
  if negb resizable && negb (t =? 0) then
    match alloc_bytes w (wrap64 (t * esz)) with
    | (Ret b, w') => (Ret (0, bptr b, Some b), w')
    | (Throw e, w') => (Throw e, w')
    | (UB, w') => (UB, w')
    end
  else if resizable && negb (n =? 0) then
    match placement w [mkSect 4 4 n; mkSect esz eal t] with
    | (Ret (b, [h; d]), w') => (Ret (h, d, Some b), w')
    | (Ret _, w') => (UB, w')
    | (Throw e, w') => (Throw e, w')
    | (UB, w') => (UB, w')
    end
  else (Ret (0, 0, None), w).

(** Lines 72-130.  [w]: the resource; [hw]: the host access resource, used if
    [host].  If an allocation throws, the members constructed before are destroyed
    in reverse order. *)
Definition jagged_buffer (esz eal : Z) (caps : list Z) (resizable host : bool) (w hw : world)
  : outcome jbuf * world * world :=
  let n := Z.of_nat (length caps) in
  match alloc_outer w (if host then n else 0) with
  | (Ret o, w1) =>
      let '(rh, w2, hw2) :=
        if host then let '(r, x) := alloc_outer hw n in (r, w1, x)
        else let '(r, x) := alloc_outer w1 n in (r, x, hw) in
      match rh with
      | Ret h =>
          match jagged_inner esz eal caps resizable w2 with
          | (Ret (hdr, dat, inner), w3) =>
              (Ret (mkJBuf (if host then bptr o else bptr h) (bptr h)
                           (inner_views esz hdr dat 0 0 caps) o h inner), w3, hw2)
          | (Throw e, w3) =>
              if host then (Throw e, free_bytes w3 o, free_bytes hw2 h)
              else (Throw e, free_bytes (free_bytes w3 h) o, hw2)
          | (UB, w3) => (UB, w3, hw2)
          end
      | Throw e => (Throw e, free_bytes w2 o, hw2)
      | UB => (UB, w2, hw2)
      end
  | (Throw e, w1) => (Throw e, w1, hw)
  | (UB, w1) => (UB, w1, hw)
  end.

(** Destruction of the buffers: the members, in reverse order. *)
Definition free_opt (w : world) (b : option block) : world :=
  match b with Some x => free_bytes w x | None => w end.
Definition jagged_destroy (j : jbuf) (host : bool) (w hw : world) : world * world :=
  let w1 := free_opt w (jb_inner j) in
  if host then (free_bytes w1 (jb_outer j), free_bytes hw (jb_host j))
  else (free_bytes (free_bytes w1 (jb_host j)) (jb_outer j), hw).
