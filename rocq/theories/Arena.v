(** Model of core/src/memory/details/arena_memory_resource_impl.{hpp,cpp}, behind the
    interface of details/memory_resource_impl.hpp (lines 19-38).  Line numbers refer
    to the .cpp file. *)
From Verif Require Import Base IntMath.

(** Lines 23-28, [align_up] with its default argument: modulo 2^64. *)
Definition align_up (v : Z) : Z := wrap64 (v + 255) / 256 * 256.
(** Line 30. *)
Definition min_superblock : Z := 2 ^ 18.

(** [arena_memory_resource_impl::block] (lines 36-81): pointer and size.  [operator<]
    compares pointers only, so a [std::set<block>] is a list with increasing pointers,
    one block per pointer. *)
Definition ablk := (Z * Z)%type.
Definition contiguous_before (a b : ablk) : bool := fst a + snd a =? fst b.

(** [std::set::insert] / [emplace] (also with a hint): no change if an element with
    this pointer is present. *)
Fixpoint set_insert (b : ablk) (l : list ablk) : list ablk :=
  match l with
  | [] => [b]
  | x :: l' => if fst x <? fst b then x :: set_insert b l'
               else if fst x =? fst b then l else b :: l
  end.

(** [std::set::lower_bound], as the split of the elements at the iterator. *)
Fixpoint set_split (p : Z) (l : list ablk) : list ablk * list ablk :=
  match l with
  | [] => ([], [])
  | x :: l' => if fst x <? p then let '(a, c) := set_split p l' in (x :: a, c) else ([], l)
  end.

(** The last element and the ones before it. *)
Fixpoint unsnoc (l : list ablk) : option (list ablk * ablk) :=
  match l with
  | [] => None
  | x :: l' => match unsnoc l' with Some (i, y) => Some (x :: i, y) | None => Some ([], x) end
  end.

(** [first_fit], lines 143-167; [None] stands for the invalid block. *)
Fixpoint first_fit (size : Z) (l : list ablk) : option (ablk * list ablk) :=
  match l with
  | [] => None
  | b :: l' =>
      if size <=? snd b then
        if size <? snd b
        then Some ((fst b, size), set_insert (fst b + size, snd b - size) l')
        else Some (b, l')
      else match first_fit size l' with Some (r, l'') => Some (r, b :: l'') | None => None end
  end.

(** [coalesce_block], lines 169-213, for a valid block.  [previous] equals [next] if
    [next] is the first position; it is dereferenced without a check for the end of the
    set.  Erasing the same position twice is undefined. *)
Definition coalesce (b : ablk) (l : list ablk) : outcome (list ablk) :=
  let '(before, after) := set_split (fst b) l in
  let merge_next := match after with [] => false | n :: _ => contiguous_before b n end in
  match unsnoc before with
  | Some (init, prev) =>
      if contiguous_before prev b then
        if merge_next
        then Ret (set_insert (fst prev, snd prev + snd b + match after with n :: _ => snd n | [] => 0 end)
                    (init ++ tl after))
        else Ret (set_insert (fst prev, snd prev + snd b) (init ++ after))
      else if merge_next
      then Ret (set_insert (fst b, snd b + match after with n :: _ => snd n | [] => 0 end) (before ++ tl after))
      else Ret (set_insert b l)
  | None =>
      match after with
      | [] => UB
      | n :: after' =>
          if contiguous_before n b then
            if merge_next then UB
            else Ret (set_insert (fst n, snd n + snd b) after')
          else if merge_next
          then Ret (set_insert (fst b, snd b + snd n) after')
          else Ret (set_insert b l)
      end
  end.

Record ast := mkArena {
  a_superblock : Z; a_maximum : Z; a_current : Z; a_free : list ablk; a_alloc : list ablk }.

(** [expand_arena], lines 230-243. *)
Definition expand (st : ast) (w : world) (size : Z) : outcome ablk * ast * world :=
  let size := if a_superblock st <? size then min_superblock else a_superblock st in
  match up_alloc w size max_align with
  | (None, w') => (Throw bad_alloc, st, w')
  | (Some p, w') =>
      let b := match find (fun x => fst x =? p) (a_free st) with Some x => x | None => (p, size) end in
      (Ret b, mkArena (a_superblock st) (a_maximum st) (wrap64 (a_current st + size))
                (set_insert (p, size) (a_free st)) (a_alloc st), w')
  end.

(** Constructor, lines 83-102. *)
Definition arena_construct (initial maximum : Z) (w : world) : outcome unit * ast * world :=
  let size_max := 2 ^ 64 - 1 in
  let request := if initial =? size_max then align_up (initial / 2) else initial in
  let maximum := if maximum =? size_max then size_max - 2 ^ 26 else maximum in
  match expand (mkArena initial maximum 0 [] []) w request with
  | (Ret b, st, w') =>
      (Ret tt, mkArena (a_superblock st) (a_maximum st) (a_current st)
                 (set_insert b (a_free st)) (a_alloc st), w')
  | (Throw e, st, w') => (Throw e, st, w')
  | (UB, st, w') => (UB, st, w')
  end.

(** [get_block], lines 215-228; [(0, 0)] is the invalid block. *)
Definition with_free (st : ast) (l : list ablk) : ast :=
  mkArena (a_superblock st) (a_maximum st) (a_current st) l (a_alloc st).
Definition fit (st : ast) (size : Z) : option (ablk * ast) :=
  match first_fit size (a_free st) with Some (b, l) => Some (b, with_free st l) | None => None end.
Definition get_block (st : ast) (w : world) (size : Z) : outcome ablk * ast * world :=
  match (if size <? min_superblock then fit st size else None) with
  | Some (b, st') => (Ret b, st', w)
  | None =>
      match expand st w size with
      | (Ret sb, st1, w1) =>
          match coalesce sb (a_free st1) with
          | Ret l =>
              let st2 := with_free st1 l in
              match fit st2 size with
              | Some (b, st3) => (Ret b, st3, w1)
              | None => (Ret (0, 0), st2, w1)
              end
          | Throw e => (Throw e, st1, w1)
          | UB => (UB, st1, w1)
          end
      | (Throw e, st1, w1) => (Throw e, st1, w1)
      | (UB, st1, w1) => (UB, st1, w1)
      end
  end.

(** [allocate], lines 120-128. *)
Definition arena_allocate (st : ast) (w : world) (bytes al : Z) : outcome Z * ast * world :=
  if bytes =? 0 then (Ret 0, st, w)
  else
    match get_block st w (align_up bytes) with
    | (Ret b, st', w') =>
        (Ret (fst b), mkArena (a_superblock st') (a_maximum st') (a_current st') (a_free st')
                        (set_insert b (a_alloc st')), w')
    | (Throw e, st', w') => (Throw e, st', w')
    | (UB, st', w') => (UB, st', w')
    end.

(** [free_block], lines 245-261: the block with this pointer and the others. *)
Fixpoint free_block (p : Z) (l : list ablk) : option (ablk * list ablk) :=
  match l with
  | [] => None
  | b :: l' => if fst b =? p then Some (b, l')
               else match free_block p l' with Some (r, l'') => Some (r, b :: l'') | None => None end
  end.

(** [deallocate], lines 130-141; the result is ignored by the wrapper. *)
Definition arena_free (st : ast) (p : Z) : outcome ast :=
  match free_block p (a_alloc st) with
  | None => Ret st
  | Some (b, l) =>
      let st1 := mkArena (a_superblock st) (a_maximum st) (a_current st) (a_free st) l in
      if fst b =? 0 then Ret st1
      else let* fl := coalesce b (a_free st1) in Ret (with_free st1 fl)
  end.
Definition arena_deallocate (st : ast) (w : world) (p bytes al : Z) : outcome unit * ast * world :=
  if p =? 0 then (Ret tt, st, w)
  else match arena_free st p with
       | Ret st' => (Ret tt, st', w)
       | Throw e => (Throw e, st, w)
       | UB => (UB, st, w)
       end.

(** Destructor, lines 104-118. *)
Fixpoint free_list (ps : list ablk) (st : ast) : outcome ast :=
  match ps with
  | [] => Ret st
  | b :: ps' => let* st' := arena_free st (fst b) in free_list ps' st'
  end.
Definition arena_destroy (st : ast) (w : world) : outcome world :=
  let* st' := free_list (a_alloc st) st in
  Ret (fold_left (fun w b => up_free w (fst b) (snd b) max_align) (a_free st') w).
