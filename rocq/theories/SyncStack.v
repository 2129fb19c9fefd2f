(** Threads that share a stack of memory resources through a synchronized_memory_resource.

    Sources: core/src/memory/synchronized_memory_resource.cpp lines 45-57 (model: Sync) on
    top of the resources of Stack.

    Simplifications: those of Sync (the mutex is a mutex, memory is sequentially consistent)
    and Stack.  Requests for 0 bytes, which the upstream resource gets too, are not among the
    legal calls considered. *)
From Verif Require Import Base Stack Sync.

(** The two calls, do_allocate and do_deallocate (lines 45-57), and what they end with. *)
Inductive scall := SAlloc (size align : Z) | SFree (b : block).
Inductive sres := RAlloc (r : outcome Z) | RFree (r : outcome unit).

(** The call of [m_upstream] made under the lock: lines 49 and 56. *)
Definition shared_step (R : resource) (u : rstate R * world) (c : scall) : (rstate R * world) * sres :=
  match c with
  | SAlloc size align => let '(r, s', w') := r_alloc R (fst u) (snd u) size align in ((s', w'), RAlloc r)
  | SFree b => let '(r, s', w') := r_free R (fst u) (snd u) (bptr b) (bsize b) (balign b) in ((s', w'), RFree r)
  end.

(** The calls that reached the resource below the mutex, newest first. *)
Definition call_of (l : label scall sres) : list uevent :=
  match lg l, lc l, lr l with
  | 3%nat, SAlloc size align, Some (RAlloc (Ret p)) => [UAlloc size align (Some p)]
  | 3%nat, SAlloc size align, _ => [UAlloc size align None]
  | 3%nat, SFree b, _ => [UFree (bptr b) (bsize b) (balign b)]
  | _, _, _ => []
  end.
Definition calls (tr : list (label scall sres)) : list uevent :=
  fold_left (fun c l => call_of l ++ c) tr [].

(** The blocks that the threads hold: from the return of the allocation to the invocation of
    the deallocation. *)
Definition hold (h : list block) (l : label scall sres) : list block :=
  match lg l, lc l, lr l with
  | 5%nat, SAlloc size align, Some (RAlloc (Ret p)) => mkBlock p size align :: h
  | 0%nat, SFree b, _ => remove1 b h
  | _, _, _ => h
  end.
Definition held (tr : list (label scall sres)) : list block := fold_left hold tr [].
