(** Models of the instrumenting memory resource and of the memory monitor. *)
From Verif Require Import Base IntMath.

(** [instrumenting_memory_resource::memory_event]
    (core/include/vecmem/memory/instrumenting_memory_resource.hpp, lines 70-101),
    without the time. *)
Inductive mevent :=
| EAlloc (size align ptr : Z)
| EDealloc (size align ptr : Z).

(** Hooks are opaque functions; they are identified by a number.  They are
    assumed not to throw and not to call the resource. *)
Record istate := mkI {
  i_pre : list nat;    (* m_pre_allocate_hooks *)
  i_post : list nat;   (* m_post_allocate_hooks *)
  i_pred : list nat;   (* m_pre_deallocate_hooks *)
  i_events : list mevent }.

(** What happens during a call, in order. *)
Inductive obs :=
| OPre (hook : nat) (size align : Z)
| OUp (e : uevent)
| OPost (hook : nat) (size align ptr : Z)
| OPreD (hook : nat) (ptr size align : Z).

(** core/src/memory/details/instrumenting_memory_resource_impl.cpp, lines 27-43:
    registration appends. *)
Definition add_pre (st : istate) (h : nat) : istate :=
  mkI (i_pre st ++ [h]) (i_post st) (i_pred st) (i_events st).
Definition add_post (st : istate) (h : nat) : istate :=
  mkI (i_pre st) (i_post st ++ [h]) (i_pred st) (i_events st).
Definition add_pred (st : istate) (h : nat) : istate :=
  mkI (i_pre st) (i_post st) (i_pred st ++ [h]) (i_events st).
Definition add_event (st : istate) (e : mevent) : istate :=
  mkI (i_pre st) (i_post st) (i_pred st) (i_events st ++ [e]).

(** instrumenting_memory_resource_impl.cpp, lines 45-117.  Also returns the
    observations of this call.  A null pointer returned by upstream (without an
    exception) is turned into [bad_alloc] too. *)
Definition i_allocate (st : istate) (w : world) (size align : Z)
  : outcome Z * istate * world * list obs :=
  if size =? 0 then (Ret 0, st, w, [])
  else
    let o1 := map (fun h => OPre h size align) (i_pre st) in
    let '(r, w') := up_alloc w size align in
    let ptr := match r with Some p => p | None => 0 end in
    let st' := add_event st (EAlloc size align ptr) in
    let o2 := map (fun h => OPost h size align ptr) (i_post st') in
    let tr := o1 ++ [OUp (UAlloc size align r)] ++ o2 in
    if ptr =? 0 then (Throw bad_alloc, st', w', tr) else (Ret ptr, st', w', tr).

(** instrumenting_memory_resource_impl.cpp, lines 119-161. *)
Definition i_deallocate (st : istate) (w : world) (p size align : Z)
  : outcome unit * istate * world * list obs :=
  if p =? 0 then (Ret tt, st, w, [])
  else
    let o1 := map (fun h => OPreD h p size align) (i_pred st) in
    let w' := up_free w p size align in
    (Ret tt, add_event st (EDealloc size align p), w', o1 ++ [OUp (UFree p size align)]).

(** ** Call sequences with hook registrations in between *)
Inductive iop := IAlloc (size align : Z) | IFree (p size align : Z)
  | IAddPre (h : nat) | IAddPost (h : nat) | IAddPreD (h : nat).
Definition i_step (st : istate) (w : world) (o : iop) : istate * world * list obs :=
  match o with
  | IAlloc size align => let '(_, st', w', tr) := i_allocate st w size align in (st', w', tr)
  | IFree p size align => let '(_, st', w', tr) := i_deallocate st w p size align in (st', w', tr)
  | IAddPre h => (add_pre st h, w, [])
  | IAddPost h => (add_post st h, w, [])
  | IAddPreD h => (add_pred st h, w, [])
  end.
Fixpoint i_run (ops : list iop) (st : istate) (w : world) (tr : list obs) : istate * world * list obs :=
  match ops with
  | [] => (st, w, tr)
  | o :: ops' => let '(st', w', t) := i_step st w o in i_run ops' st' w' (tr ++ t)
  end.
Definition i_init : istate := mkI [] [] [] [].

(** ** core/src/utils/memory_monitor.cpp *)
Record mon := mkMon { n_alloc : Z; total_alloc : Z; outstanding : Z; maximum_alloc : Z }.
(** core/include/vecmem/utils/memory_monitor.hpp, lines 55-62: all zero. *)
Definition mon_init : mon := mkMon 0 0 0 0.

(** Lines 52-63, in 64-bit arithmetic. *)
Definition post_allocate (m : mon) (size ptr : Z) : mon :=
  if ptr =? 0 then m
  else let out := wrap64 (outstanding m + size) in
       mkMon (wrap64 (n_alloc m + 1)) (wrap64 (total_alloc m + size)) out
             (Z.max out (maximum_alloc m)).

(** Lines 65-69; [None]: the assertion fails. *)
Definition pre_deallocate (m : mon) (size : Z) : option mon :=
  if outstanding m <? size then None
  else Some (mkMon (n_alloc m) (total_alloc m) (outstanding m - size) (maximum_alloc m)).

(** Lines 41-45 [average_allocation].  With no allocation this is [0.0 / 0.0],
    and converting the resulting NaN to an integer is undefined.  Otherwise the
    double-precision quotient is simplified to the exact one, rounded to nearest
    with halves away from zero. *)
Definition average_allocation (m : mon) : outcome Z :=
  if n_alloc m =? 0 then UB
  else Ret ((2 * total_alloc m + n_alloc m) / (2 * n_alloc m)).

(** The monitor's reaction to what happens in the resource it watches; [k] is
    the number of its two hooks (lines 19-29). *)
Definition mon_obs (k : nat) (m : option mon) (o : obs) : option mon :=
  match m, o with
  | Some m, OPost h size _ ptr => if Nat.eqb h k then Some (post_allocate m size ptr) else Some m
  | Some m, OPreD h _ size _ => if Nat.eqb h k then pre_deallocate m size else Some m
  | m, _ => m
  end.

(** A resource with a monitor attached (lines 19-29: one post-allocation and one
    pre-deallocation hook). *)
Definition attach (st : istate) (k : nat) : istate := add_pred (add_post st k) k.

Definition mstate := (istate * mon)%type.
Definition mon_allocate (k : nat) (s : mstate) (w : world) (size align : Z)
  : outcome Z * mstate * world :=
  let '(r, st', w', tr) := i_allocate (fst s) w size align in
  match fold_left (mon_obs k) tr (Some (snd s)) with
  | Some m' => (r, (st', m'), w')
  | None => (UB, s, w)
  end.
Definition mon_deallocate (k : nat) (s : mstate) (w : world) (p size align : Z)
  : outcome unit * mstate * world :=
  let '(r, st', w', tr) := i_deallocate (fst s) w p size align in
  match fold_left (mon_obs k) tr (Some (snd s)) with
  | Some m' => (r, (st', m'), w')
  | None => (UB, s, w)
  end.
