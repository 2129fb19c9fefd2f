(** Models of core/src/memory/default_resource_polyfill.cpp and
    core/src/memory/host_memory_resource.cpp. *)
From Verif Require Import Base IntMath Align.

(** ** Default resource

    Resources are identified by their address; [nd] is the address of the
    function-local static of [new_delete_resource] (lines 31-36). *)
Inductive dr_op := DRGet | DRSet (r : Z).
(** Lines 38-48; each operation is one atomic access of the static atomic of
    lines 24-27, so an interleaving is a sequence of these steps. *)
Definition dr_step (nd cur : Z) (o : dr_op) : Z * Z :=
  match o with
  | DRGet => (cur, cur)
  | DRSet r => let new_res := if r =? 0 then nd else r in (new_res, cur)
  end.
Fixpoint dr_run (nd cur : Z) (ops : list dr_op) : Z * list Z :=
  match ops with
  | [] => (cur, [])
  | o :: ops' => let '(cur', r) := dr_step nd cur o in
                 let '(cur'', l) := dr_run nd cur' ops' in (cur'', r :: l)
  end.

(** ** host_memory_resource, with [std::aligned_alloc]

    [aligned_alloc] is the upstream world.  [std::free] takes no size: the log
    records, as ghost information, the size and alignment computed from the
    arguments of the deallocation. *)

(** Line 38-39: the values passed to [std::aligned_alloc]. *)
Definition ha_align (alignment : Z) : Z := Z.max alignment max_align.
Definition ha_size (bytes alignment : Z) : Z :=
  let align := ha_align alignment in wrap64 (bytes + (align - bytes mod align)).

(** Lines 26-78 (first branch). *)
Definition ha_allocate (w : world) (bytes alignment : Z) : outcome Z * world :=
  if bytes =? 0 then (Ret 0, w)
  else match up_alloc w (ha_size bytes alignment) (ha_align alignment) with
       | (Some p, w') => if p =? 0 then (Throw bad_alloc, w') else (Ret p, w')
       | (None, w') => (Throw bad_alloc, w')
       end.
(** Lines 80-98 (first branch). *)
Definition ha_deallocate (w : world) (p bytes alignment : Z) : outcome unit * world :=
  if p =? 0 then (Ret tt, w)
  else (Ret tt, up_free w p (ha_size bytes alignment) (ha_align alignment)).

(** ** host_memory_resource, with [std::malloc]

    Memory maps each address to the pointer-sized word stored there.  Only the
    bookkeeping words are ever read; storing one changes that word only (the
    others it could touch are shown not to overlap it). *)
Definition hmem := Z -> Z.
Definition ptr_size : Z := 8.
Definition hf_size (bytes alignment : Z) : Z := wrap64 (bytes + alignment + ptr_size - 1).

(** Lines 50-72 (second branch); [malloc] returns blocks aligned to
    [alignof(std::max_align_t)]. *)
Definition hf_allocate (m : hmem) (w : world) (bytes alignment : Z)
  : outcome Z * hmem * world :=
  if bytes =? 0 then (Ret 0, m, w)
  else
    let alloc_bytes := hf_size bytes alignment in
    match up_alloc w alloc_bytes max_align with
    | (None, w') => (Throw bad_alloc, m, w')
    | (Some u, w') =>
        let ptr := u + ptr_size in
        let align_bytes := wrap64 (alloc_bytes - ptr_size) in
        match std_align alignment bytes ptr align_bytes with
        | None => (UB, m, w')
        | Some (ptr, _) =>
            (Ret ptr, (fun a => if a =? ptr - ptr_size then u else m a), w')
        end
    end.
(** Lines 80-98 (second branch): free the word stored before the block. *)
Definition hf_deallocate (m : hmem) (w : world) (p bytes alignment : Z)
  : outcome unit * hmem * world :=
  if p =? 0 then (Ret tt, m, w)
  else (Ret tt, m, up_free w (m (p - ptr_size)) (hf_size bytes alignment) max_align).

(** Histories with the user writing to the blocks in their possession: any word
    that shares a byte with a live block can change at any time. *)
Inductive hf_reach (legal : Z -> Z -> Prop) : hmem -> world -> list block -> Prop :=
| hfr_init m w : fresh w -> hf_reach legal m w []
| hfr_alloc m w live size align p m' w' :
    hf_reach legal m w live -> legal size align ->
    hf_allocate m w size align = (Ret p, m', w') ->
    hf_reach legal m' w' (if size =? 0 then live else mkBlock p size align :: live)
| hfr_throw m w live size align e m' w' :
    hf_reach legal m w live -> legal size align ->
    hf_allocate m w size align = (Throw e, m', w') -> hf_reach legal m' w' live
| hfr_free m w live b m' w' :
    hf_reach legal m w live -> In b live ->
    hf_deallocate m w (bptr b) (bsize b) (balign b) = (Ret tt, m', w') ->
    hf_reach legal m' w' (remove1 b live)
| hfr_free_null m w live size align m' w' :
    hf_reach legal m w live -> hf_deallocate m w 0 size align = (Ret tt, m', w') ->
    hf_reach legal m' w' live
| hfr_write m w live b m' :
    hf_reach legal m w live -> In b live ->
    (forall a, ~ overlap b (mkBlock a ptr_size 1) -> m' a = m a) -> hf_reach legal m' w live.
