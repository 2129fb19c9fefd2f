(** Model of core/src/memory/details/pool_memory_resource_impl.{hpp,cpp}, behind
    the interface of details/memory_resource_impl.hpp (lines 19-38). *)
From Verif Require Import Base IntMath Align.

(** pool_memory_resource.hpp, [struct options]. *)
Record options := mkOpts {
  min_blocks : Z; min_bytes : Z; max_blocks : Z; max_bytes : Z;
  smallest : Z; largest : Z; alignment : Z; cache_oversized : bool;
  size_cutoff : Z; align_cutoff : Z }.
(** The default member initialisers. *)
Definition default_options : options :=
  mkOpts 16 1024 (2 ^ 20) (2 ^ 30) max_align (2 ^ 20) max_align true 16 16.

(** pool_memory_resource_impl.cpp lines 38-65: true iff no check throws; products
    in 64-bit modular arithmetic. *)
Definition check_valid (o : options) : bool :=
  is_power_of_2 (smallest o) && is_power_of_2 (largest o) && is_power_of_2 (alignment o) &&
  negb ((max_bytes o =? 0) || (max_blocks o =? 0)) &&
  negb ((smallest o =? 0) || (largest o =? 0)) &&
  negb (max_blocks o <? min_blocks o) && negb (max_bytes o <? min_bytes o) &&
  negb (largest o <? smallest o) &&
  negb (max_bytes o <? wrap64 (min_blocks o * smallest o)) &&
  negb (max_bytes o <? wrap64 (min_blocks o * largest o)) &&
  negb (wrap64 (max_blocks o * largest o) <? min_bytes o) &&
  negb (wrap64 (max_blocks o * smallest o) <? min_bytes o) &&
  negb (smallest o <? alignment o).

(** oversized_block_descriptor (hpp) and its [operator<] (cpp lines 269-273). *)
Record odesc := mkO { od_size : Z; od_align : Z; od_ptr : Z }.
Definition od_lt (a b : odesc) : bool :=
  (od_size a <? od_size b) || ((od_size a =? od_size b) && (od_align a <? od_align b)).

(** A pool: [free_blocks] with the back of the vector at the head of the list, and
    [previous_allocated_count]. *)
Record bucket := mkBucket { fl : list Z; prev : Z }.
(** A chunk: size and pointer. *)
Record pst := mkPool {
  p_pools : list bucket; p_chunks : list (Z * Z); p_cached : list odesc; p_over : list odesc }.

(** Constructor, lines 69-80.  [m_smallest_block_log2] is initialised before the
    options are checked; [log2_ri(0)] is undefined. *)
Definition pool_construct (o : options) : outcome (Z * pst) :=
  match log2_ri (smallest o) with
  | None => UB
  | Some sl =>
      if negb (check_valid o) then Throw invalid_argument
      else match log2_ri (largest o) with
           | None => UB
           | Some ll => Ret (sl, mkPool (repeat (mkBucket [] 0) (Z.to_nat (ll - sl + 1))) [] [] [])
           end
  end.

(** [std::lower_bound] on a range sorted by [operator<], as the split of the range
    at the position found: the first element that is not smaller. *)
Fixpoint lower_bound (d : odesc) (l : list odesc) : list odesc * list odesc :=
  match l with
  | [] => ([], [])
  | x :: l' => if od_lt x d then let '(a, b) := lower_bound d l' in (x :: a, b) else ([], l)
  end.

(** Lines 132-141: [find_if] from the next element, as a split. *)
Fixpoint find_align (al : Z) (l : list odesc) : list odesc * list odesc :=
  match l with
  | [] => ([], [])
  | x :: l' => if al <=? od_align x then ([], l)
               else let '(a, b) := find_align al l' in (x :: a, b)
  end.

(** Lines 113-160: the cached block to use, with the cache without it. *)
Definition cache_lookup (o : options) (cache : list odesc) (bytes al : Z)
  : option (odesc * list odesc) :=
  let '(before, after) := lower_bound (mkO bytes al 0) cache in
  match after with
  | [] => None
  | it :: rest =>
      if size_cutoff o <=? od_size it / bytes then None
      else
        let '(skipped, cand) :=
          if od_align it <? al
          then let '(a, b) := find_align al rest in (it :: a, b) else ([], after) in
        match cand with
        | [] => None
        | c :: rest' =>
            if align_cutoff o <=? od_align c / al then None
            else Some (c, before ++ skipped ++ rest')
        end
  end.

(** Lines 212-215: addresses of the blocks of a chunk, last pushed first. *)
Fixpoint chunk_blocks (p bs : Z) (n : nat) : list Z :=
  match n with O => [] | S n' => p + Z.of_nat n' * bs :: chunk_blocks p bs n' end.

(** Lines 182-196: number of blocks in the next chunk. *)
Definition next_count (o : options) (prev lg : Z) : Z :=
  if prev =? 0 then
    let n := min_blocks o in
    if n <? Z.shiftr (min_bytes o) lg then Z.shiftr (min_bytes o) lg else n
  else
    let n := wrap64 (prev * 3) / 2 in
    let n := if Z.shiftr (max_bytes o) lg <? n then Z.shiftr (max_bytes o) lg else n in
    if max_blocks o <? n then max_blocks o else n.

Definition is_oversized (o : options) (bytes al : Z) : bool :=
  (largest o <? bytes) || (alignment o <? al).
(** Lines 100 and 229. *)
Definition adjust (o : options) (bytes : Z) : Z := Z.max bytes (smallest o).

(** Lines 171-222, pooled allocation. *)
Definition pool_take (st : pst) (idx : nat) (b : bucket) (w : world) : outcome Z * pst * world :=
  match fl b with
  | [] => (UB, st, w)
  | p :: fl' => (Ret p, mkPool (upd (p_pools st) idx (mkBucket fl' (prev b)))
                          (p_chunks st) (p_cached st) (p_over st), w)
  end.
Definition pool_allocate_pooled (o : options) (sl : Z) (st : pst) (w : world) (bytes : Z)
  : outcome Z * pst * world :=
  match log2_ri bytes with
  | None => (UB, st, w)
  | Some lg =>
      let idx := Z.to_nat (lg - sl) in
      match nth_error (p_pools st) idx with
      | None => (UB, st, w)
      | Some b =>
          match fl b with
          | _ :: _ => pool_take st idx b w
          | [] =>
              let n := next_count o (prev b) lg in
              let sz := wrap64 (Z.shiftl n lg) in
              if (min_blocks o <=? n) && (n <=? max_blocks o) &&
                 (min_bytes o <=? sz) && (sz <=? max_bytes o)
              then
                match up_alloc w sz (alignment o) with
                | (None, w') => (Throw bad_alloc, st, w')
                | (Some p, w') =>
                    let b' := mkBucket (chunk_blocks p (2 ^ lg) (Z.to_nat n)) n in
                    pool_take (mkPool (upd (p_pools st) idx b') (p_chunks st ++ [(sz, p)])
                                 (p_cached st) (p_over st)) idx b' w'
                end
              else (UB, st, w)
          end
      end
  end.

(** Lines 105-167, oversized allocation. *)
Definition pool_allocate_oversized (o : options) (st : pst) (w : world) (bytes al : Z)
  : outcome Z * pst * world :=
  let hit := if cache_oversized o then cache_lookup o (p_cached st) bytes al else None in
  match hit with
  | Some (d, cache') =>
      (Ret (od_ptr d), mkPool (p_pools st) (p_chunks st) cache' (p_over st), w)
  | None =>
      match up_alloc w bytes al with
      | (None, w') => (Throw bad_alloc, st, w')
      | (Some p, w') =>
          (Ret p, mkPool (p_pools st) (p_chunks st) (p_cached st) (p_over st ++ [mkO bytes al p]), w')
      end
  end.

(** Lines 96-223. *)
Definition pool_allocate (o : options) (sl : Z) (st : pst) (w : world) (bytes al : Z)
  : outcome Z * pst * world :=
  if bytes =? 0 then (Ret 0, st, w)
  else
    let bytes := adjust o bytes in
    if negb (is_power_of_2 al) then (UB, st, w)
    else if is_oversized o bytes al then pool_allocate_oversized o st w bytes al
    else pool_allocate_pooled o sl st w bytes.

(** Lines 237-243: [find_if] by pointer. *)
Fixpoint find_ptr (p : Z) (l : list odesc) : option (odesc * list odesc) :=
  match l with
  | [] => None
  | x :: l' => if od_ptr x =? p then Some (x, l')
               else match find_ptr p l' with Some (d, r) => Some (d, x :: r) | None => None end
  end.

(** Lines 225-267. *)
Definition pool_deallocate (o : options) (sl : Z) (st : pst) (w : world) (p bytes al : Z)
  : outcome unit * pst * world :=
  if p =? 0 then (Ret tt, st, w)
  else
    let bytes := adjust o bytes in
    if negb (is_power_of_2 al) || negb (is_aligned p al) then (UB, st, w)
    else if is_oversized o bytes al then
      match find_ptr p (p_over st) with
      | None => (UB, st, w)
      | Some (d, over') =>
          if cache_oversized o then
            let '(before, after) := lower_bound d (p_cached st) in
            (Ret tt, mkPool (p_pools st) (p_chunks st) (before ++ d :: after) (p_over st), w)
          else
            (Ret tt, mkPool (p_pools st) (p_chunks st) (p_cached st) over',
             up_free w p (od_size d) (od_align d))
      end
    else
      match log2_ri bytes with
      | None => (UB, st, w)
      | Some lg =>
          let idx := Z.to_nat (lg - sl) in
          match nth_error (p_pools st) idx with
          | None => (UB, st, w)
          | Some b => (Ret tt, mkPool (upd (p_pools st) idx (mkBucket (p :: fl b) (prev b)))
                                 (p_chunks st) (p_cached st) (p_over st), w)
          end
      end.

(** Destructor, lines 82-94. *)
Definition pool_destroy (o : options) (st : pst) (w : world) : world :=
  let w1 := fold_left (fun w c => up_free w (snd c) (fst c) (alignment o)) (p_chunks st) w in
  fold_left (fun w d => up_free w (od_ptr d) (od_size d) (od_align d)) (p_cached st) w1.
