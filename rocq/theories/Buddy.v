(** Model of core/src/memory/details/binary_page_memory_resource_impl.{hpp,cpp}
    (the "binary page" = buddy allocator). *)
From Verif Require Import Base IntMath.

(** binary_page_memory_resource_impl.hpp:38,48,56. *)
Definition min_superpage_size : Z := 20.
Definition delta_superpage_size : Z := 8.
Definition min_page_size : Z := 8.

(** binary_page_memory_resource_impl.hpp:69 [page_state]. *)
Inductive pstate := OCCUPIED | VACANT | SPLIT | NON_EXTANT.

Definition pstate_eqb (a b : pstate) : bool :=
  match a, b with
  | OCCUPIED, OCCUPIED | VACANT, VACANT | SPLIT, SPLIT | NON_EXTANT, NON_EXTANT => true
  | _, _ => false
  end.

(** binary_page_memory_resource_impl.hpp:75-116 [struct superpage].  [sp_base] is
    the address held by [m_memory]; [m_num_pages] is the length of [sp_pages]. *)
Record superpage := mkSP {
  sp_size : Z; sp_min : Z; sp_pages : list pstate; sp_base : Z }.

(** [m_superpages]; the upstream resource is the [world]. *)
Definition state := list superpage.

(** A [page_ref] (hpp:118-) is a superpage and a page index; the functions below
    take these two.  Its constructor asserts that the index is in range
    (cpp:331-335). *)

(** cpp:283-289 [page_ref::get_size]. [clzl] is defined for all arguments here as
    [p + 1 > 0]. *)
Definition get_size (sp : superpage) (p : nat) : Z :=
  sp_size sp - match clzl (Z.of_nat p + 1) with Some c => 63 - c | None => 0 end.

(** cpp:337-340 [page_ref::get_state]; out of range is undefined. *)
Definition get_state (sp : superpage) (p : nat) : outcome pstate :=
  match nth_error (sp_pages sp) p with Some s => Ret s | None => UB end.

(** cpp:342-349 [page_ref::get_addr]. *)
Definition get_addr (sp : superpage) (p : nat) : Z :=
  let d := sp_size sp - get_size sp p in
  sp_base sp + (Z.of_nat p - (2 ^ d - 1)) * 2 ^ get_size sp p.

(** cpp:291-325, the six [change_state_x_to_y] functions. *)
Definition change_state (sp : superpage) (p : nat) (x y : pstate) : outcome superpage :=
  let* s := get_state sp p in
  assert (pstate_eqb s x)
    (Ret (mkSP (sp_size sp) (sp_min sp) (upd (sp_pages sp) p y) (sp_base sp))).

(** cpp:361-369. *)
Definition left_child (p : nat) : nat := (2 * p + 1)%nat.
Definition right_child (p : nat) : nat := (2 * p + 2)%nat.

(** cpp:371-380. *)
Definition parent (p : nat) : option nat :=
  if Nat.eqb p 0 then None
  else if Nat.eqb (Nat.modulo p 2) 0 then Some (Nat.div (p - 2) 2)
  else Some (Nat.div (p - 1) 2).

(** cpp:382-391. *)
Definition sibling (p : nat) : option nat :=
  if Nat.eqb p 0 then None
  else if Nat.eqb (Nat.modulo p 2) 0 then Some (p - 1)%nat
  else Some (p + 1)%nat.

(** cpp:412-416 [page_ref::split]. *)
Definition split (sp : superpage) (p : nat) : outcome superpage :=
  let* sp := change_state sp p VACANT SPLIT in
  let* sp := change_state sp (left_child p) NON_EXTANT VACANT in
  change_state sp (right_child p) NON_EXTANT VACANT.

(** cpp:393-411 [page_ref::unsplit].  [fuel] bounds the recursion depth. *)
Definition split_or_vacant (s : pstate) : bool :=
  pstate_eqb s SPLIT || pstate_eqb s VACANT.
Fixpoint unsplit (fuel : nat) (sp : superpage) (p : nat) : outcome superpage :=
  match fuel with
  | O => UB
  | S f =>
      let* s := get_state sp p in
      assert (pstate_eqb s SPLIT)
      (let* sl := get_state sp (left_child p) in
       assert (split_or_vacant sl)
       (let* sr := get_state sp (right_child p) in
        assert (split_or_vacant sr)
        (let* sp := if pstate_eqb sl SPLIT then unsplit f sp (left_child p) else Ret sp in
         let* sr := get_state sp (right_child p) in
         let* sp := if pstate_eqb sr SPLIT then unsplit f sp (right_child p) else Ret sp in
         let* sp := change_state sp p SPLIT VACANT in
         let* sp := change_state sp (left_child p) VACANT NON_EXTANT in
         change_state sp (right_child p) VACANT NON_EXTANT)))
  end.

(** cpp:142 and cpp:211-213: [for (i = 0; page_ref(sp, i).get_size() > s;
    i = 2 * i + 1);].  The [page_ref] constructor asserts the range. *)
Fixpoint first_of_size (fuel : nat) (sp : superpage) (i : nat) (s : Z) : outcome nat :=
  match fuel with
  | O => UB
  | S f => assert (Nat.ltb i (length (sp_pages sp)))
             (if s <? get_size sp i then first_of_size f sp (2 * i + 1) s else Ret i)
  end.

(** cpp:220-229: look for a vacant page among the [n] pages from [p] on. *)
Fixpoint scan (sp : superpage) (p n : nat) : outcome (option nat) :=
  match n with
  | O => Ret None
  | S n' => let* s := get_state sp p in
            if pstate_eqb s VACANT then Ret (Some p) else scan sp (S p) n'
  end.

(** cpp:198-231: one pass over the superpages ([k] is the index of the head of
    [l]).  Returns the page if found, and otherwise whether there was a candidate
    superpage. *)
Fixpoint find_pass (l : list superpage) (k : nat) (size search : Z)
  : outcome (option (nat * nat) * bool) :=
  match l with
  | [] => Ret (None, false)
  | sp :: l' =>
      if (sp_min sp <=? size) && (search <=? sp_size sp) then
        let* i := first_of_size 64 sp 0 search in
        let* r := scan sp i (2 * i + 1 - i) in
        match r with
        | Some p => Ret (Some (k, p), true)
        | None => let* rc := find_pass l' (S k) size search in Ret (fst rc, true)
        end
      else find_pass l' (S k) size search
  end.

(** cpp:190-242: the do-while loop of [find_free_page]. *)
Fixpoint find_loop (fuel : nat) (l : list superpage) (size search : Z)
  : outcome (option (nat * nat)) :=
  match fuel with
  | O => UB
  | S f => let* rc := find_pass l 0 size search in
           match rc with
           | (Some r, _) => Ret (Some r)
           | (None, true) => find_loop f l size (search + 1)
           | (None, false) => Ret None
           end
  end.

(** cpp:180-243 [find_free_page]. *)
Definition find_free_page (st : state) (size : Z) : outcome (option (nat * nat)) :=
  find_loop 128 st size size.

(** cpp:258-277 [superpage::superpage], given the address from upstream. *)
Definition num_pages (m_size m_min : Z) : nat := Z.to_nat (2 * 2 ^ (m_size - m_min) - 1).
Definition new_superpage (m_size base : Z) : superpage :=
  mkSP m_size (m_size - delta_superpage_size)
       (VACANT :: repeat NON_EXTANT
                    (num_pages m_size (m_size - delta_superpage_size) - 1)) base.

(** cpp:245-256 [allocate_upstream]: the size of the superpage to request. *)
Definition superpage_size_for (size : Z) : Z :=
  if min_superpage_size <=? size then size
  else Z.min (size + delta_superpage_size) min_superpage_size.

(** cpp:245-277 [allocate_upstream] with the superpage constructor; upstream is
    called through [make_unique_alloc<std::byte[]>] (unique_ptr.hpp:224-256),
    i.e. [allocate(2^m_size)] with the default alignment. If upstream throws,
    [m_superpages] is unchanged. *)
Definition allocate_upstream (st : state) (w : world) (size : Z)
  : outcome state * world :=
  let m := superpage_size_for size in
  if m - delta_superpage_size <? min_page_size then (UB, w)
  else match up_alloc w (2 ^ m) max_align with
       | (Some p, w') => (Ret (st ++ [new_superpage m p]), w')
       | (None, w') => (Throw bad_alloc, w')
       end.

(** cpp:75-80: split the page until the target size is reached. *)
Fixpoint split_to (fuel : nat) (sp : superpage) (p : nat) (goal : Z)
  : outcome (superpage * nat) :=
  match fuel with
  | O => UB
  | S f => if goal <? get_size sp p then
             let* sp := split sp p in split_to f sp (left_child p) goal
           else Ret (sp, p)
  end.

(** cpp:70-98: take page [p] of superpage number [k]. *)
Definition take_page (st : state) (k p : nat) (goal : Z) : outcome (Z * state) :=
  match nth_error st k with
  | None => UB
  | Some sp =>
      let* s := get_state sp p in
      assert (pstate_eqb s VACANT)
      (let* (sp, p) := split_to 64 sp p goal in
       let* sp := change_state sp p VACANT OCCUPIED in
       Ret (get_addr sp p, upd st k sp))
  end.

(** cpp:28-99 [allocate]; the alignment argument is ignored by the code. *)
Definition allocate (st : state) (w : world) (size : Z) : outcome Z * state * world :=
  match round_up_checked size with
  | Ret ru =>
      let goal := Z.max min_page_size ru in
      let finish st w k p :=
        match take_page st k p goal with
        | Ret (a, st') => (Ret a, st', w)
        | Throw e => (Throw e, st, w)
        | UB => (UB, st, w)
        end in
      match find_free_page st goal with
      | Ret (Some (k, p)) => finish st w k p
      | Ret None =>
          match allocate_upstream st w goal with
          | (Ret st', w') =>
              match find_free_page st' goal with
              | Ret (Some (k, p)) => finish st' w' k p
              | Ret None => (Throw bad_alloc, st', w')
              | Throw e => (Throw e, st', w')
              | UB => (UB, st', w')
              end
          | (Throw e, w') => (Throw e, st, w')
          | (UB, w') => (UB, st, w')
          end
      | Throw e => (Throw e, st, w)
      | UB => (UB, st, w)
      end
  | _ => (UB, st, w)
  end.

(** cpp:115-128: the first superpage whose memory contains [p]. *)
Fixpoint find_sp (l : list superpage) (k : nat) (p : Z) : option nat :=
  match l with
  | [] => None
  | sp :: l' => if (sp_base sp <=? p) && (p <? sp_base sp + 2 ^ sp_size sp)
                then Some k else find_sp l' (S k) p
  end.

(** [static_cast<std::ptrdiff_t>] of an unsigned 64-bit value. *)
Definition to_signed (x : Z) : Z := if x <? 2 ^ 63 then x else x - 2 ^ 64.

(** cpp:164-171: climb to the largest vacant page. *)
Fixpoint climb (fuel : nat) (sp : superpage) (p : nat) : outcome nat :=
  match fuel with
  | O => UB
  | S f => match sibling p with
           | None => Ret p
           | Some q => let* s := get_state sp q in
                       if pstate_eqb s VACANT then
                         match parent p with Some r => climb f sp r | None => UB end
                       else Ret p
           end
  end.

(** cpp:140-177: the part of [deallocate] that works on one superpage. *)
Definition dealloc_page (sp : superpage) (p s : Z) : outcome superpage :=
  let* ru := round_up_checked s in
  let goal := Z.max (sp_min sp) ru in
  let* p_min := first_of_size 64 sp 0 goal in
  let diff := p - sp_base sp in
  let page := Z.to_nat (Z.of_nat p_min + Z.quot diff (to_signed (2 ^ goal))) in
  assert (Nat.ltb page (length (sp_pages sp)))
  (let* sp := change_state sp page OCCUPIED VACANT in
   let* l := climb 64 sp page in
   if Nat.eqb l page then Ret sp
   else let* sp := unsplit 64 sp l in
        let* s := get_state sp page in
        assert (pstate_eqb s NON_EXTANT) (Ret sp)).

(** cpp:101-178 [deallocate].  Dereferencing the empty optional is undefined. *)
Definition deallocate (st : state) (p s : Z) : outcome state :=
  match find_sp st 0 p with
  | None => UB
  | Some k =>
      match nth_error st k with
      | None => UB
      | Some sp => let* sp' := dealloc_page sp p s in Ret (upd st k sp')
      end
  end.

(** The public interface [binary_page_memory_resource]:
    core/src/memory/details/memory_resource_impl.hpp:19-38 adds the shortcuts for size 0
    and for the null pointer. *)
Definition do_allocate (st : state) (w : world) (size align : Z) : outcome Z * state * world :=
  if size =? 0 then (Ret 0, st, w) else allocate st w size.

Definition do_deallocate (st : state) (w : world) (p size align : Z)
  : outcome unit * state * world :=
  if p =? 0 then (Ret tt, st, w)
  else match deallocate st p size with
       | Ret st' => (Ret tt, st', w)
       | Throw e => (Throw e, st, w)
       | UB => (UB, st, w)
       end.

(** hpp:28-36 constructor: no superpages. *)
Definition init : state := [].

(** Destruction of [m_superpages]: the [std::vector] destructor destroys its
    elements in order (libstdc++), and each [m_memory] calls its
    [unique_alloc_deleter] (unique_alloc_deleter.hpp), which deallocates with the
    recorded size and the default alignment. *)
Fixpoint destroy (st : state) (w : world) : world :=
  match st with
  | [] => w
  | sp :: st' => destroy st' (up_free w (sp_base sp) (2 ^ sp_size sp) max_align)
  end.
