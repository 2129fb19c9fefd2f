(** Comparing memory resources: do_is_equal of the resources of the core library, and what
    it says about exchanging one resource for another.

    Sources (core/src/memory): details/memory_resource_base.cpp lines 13-19,
    host_memory_resource.cpp 100-109, terminal_memory_resource.cpp 23-46,
    identity_memory_resource.cpp 19-55, synchronized_memory_resource.cpp 43-73.

    Simplifications: a resource is given by the address of the object and, for the identity
    and the synchronized resource, by its upstream resource; every resource that inherits
    do_is_equal from memory_resource_base (arena, binary page, choice, coalescing, conditional,
    contiguous, debug, instrumenting, pool) is an [MOwn]. *)
From Verif Require Export Base Forwarding.

Inductive mres :=
| MOwn (addr : nat)
| MHost (addr : nat)
| MTerminal (addr : nat)
| MIdentity (addr : nat) (up : mres)
| MSync (addr : nat) (up : mres).

Definition mr_addr (r : mres) : nat :=
  match r with MOwn a | MHost a | MTerminal a | MIdentity a _ | MSync a _ => a end.

(** do_is_equal of [this] for the argument [other]. *)
Fixpoint mr_is_equal (this other : mres) : bool :=
  match this with
  | MOwn a => Nat.eqb a (mr_addr other)
  | MHost _ => match other with MHost _ => true | _ => false end
  | MTerminal _ => match other with MTerminal _ => true | _ => false end
  | MIdentity _ u => match other with MIdentity _ v => mr_is_equal u v | _ => false end
  | MSync _ u => match other with
                 | MSync _ v => mr_is_equal u v
                 | _ => mr_is_equal u other
                 end
  end.

(** The heap that a resource without upstream takes memory from: all host resources share
    the heap of the C library (number 0), the others have one of their own. *)
Definition own_heap (a : nat) : nat := S a.

(** allocate and deallocate of a resource with all its layers. *)
Fixpoint mr_allocate (r : mres) (size align : Z) (w : mworld) : outcome Z * mworld :=
  match r with
  | MOwn a => match m_alloc w (own_heap a) size align with
              | (Some p, w') => (Ret p, w') | (None, w') => (Throw bad_alloc, w') end
  | MHost _ => match m_alloc w O size align with
               | (Some p, w') => (Ret p, w') | (None, w') => (Throw bad_alloc, w') end
  | MTerminal _ => (Throw bad_alloc, w)
  | MIdentity _ u => if size =? 0 then (Ret 0, w) else mr_allocate u size align w
  | MSync _ u => mr_allocate u size align w
  end.
Fixpoint mr_deallocate (r : mres) (p size align : Z) (w : mworld) : mworld :=
  match r with
  | MOwn a => m_free w (own_heap a) p size align
  | MHost _ => m_free w O p size align
  | MTerminal _ => w
  | MIdentity _ u => if p =? 0 then w else mr_deallocate u p size align w
  | MSync _ u => mr_deallocate u p size align w
  end.
