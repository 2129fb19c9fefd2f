(** Model of core/src/memory/details/contiguous_memory_resource_impl.cpp. *)
From Verif Require Import Base IntMath Align.

(** Members [m_size], [m_begin], [m_next]. *)
Record cstate := mkC { c_size : Z; c_begin : Z; c_next : Z }.

(** Lines 21-31: the constructor takes its block from upstream, with the default
    alignment; [bad_alloc] from upstream propagates. *)
Definition c_construct (w : world) (size : Z) : outcome cstate * world :=
  match up_alloc w size max_align with
  | (Some p, w') => (Ret (mkC size p p), w')
  | (None, w') => (Throw bad_alloc, w')
  end.

(** Lines 33-41: the destructor. *)
Definition c_destroy (st : cstate) (w : world) : world :=
  up_free w (c_begin st) (c_size st) max_align.

(** Lines 43-80 [allocate]; [rem] is computed in unsigned arithmetic. *)
Definition c_allocate (st : cstate) (size align : Z) : outcome Z * cstate :=
  if size =? 0 then (Ret 0, st)
  else if c_next st <? c_begin st then (UB, st)
  else
    let rem := wrap64 (c_size st - (c_next st - c_begin st)) in
    match std_align align size (c_next st) rem with
    | Some (p, _) => (Ret p, mkC (c_size st) (c_begin st) (p + size))
    | None => (Throw bad_alloc, st)
    end.

(** Lines 82-88 [deallocate]: nothing happens. *)
Definition c_deallocate (st : cstate) (p size align : Z) : cstate := st.

(** A call sequence; the result lists every block ever handed out, in order. *)
Inductive cop := CAlloc (size align : Z) | CDealloc (p size align : Z).
Fixpoint c_run (ops : list cop) (st : cstate) : outcome (list block * cstate) :=
  match ops with
  | [] => Ret ([], st)
  | CAlloc size align :: ops' =>
      match c_allocate st size align with
      | (Ret p, st') =>
          let* (l, st'') := c_run ops' st' in
          Ret (if size =? 0 then l else mkBlock p size align :: l, st'')
      | (Throw _, st') => c_run ops' st'
      | (UB, _) => UB
      end
  | CDealloc p size align :: ops' => c_run ops' (c_deallocate st p size align)
  end.
