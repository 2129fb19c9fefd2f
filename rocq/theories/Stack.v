(** Stacks of memory resources: every resource is the upstream resource of the one above.

    Sources: the constructors that take an upstream [memory_resource&]
    (core/include/vecmem/memory/pool_memory_resource.hpp, binary_page_memory_resource.hpp,
    contiguous_memory_resource.hpp, identity_memory_resource.hpp,
    conditional_memory_resource.hpp, debug_memory_resource.hpp, terminal_memory_resource.hpp,
    instrumenting_memory_resource.hpp); the resources themselves are the models of Pool.v,
    Buddy.v, Contiguous.v, Forwarding.v and Instrument.v.

    A resource of these models talks to its upstream through a [world]: the log of the calls
    with their answers.  Here the answers in the log of one resource are those that the
    resource below gives to these calls, in this order.

    Simplifications: no concurrency; an upstream resource only throws std::bad_alloc (what
    the resources modelled here throw on legal calls). *)
From Verif Require Import Base Buddy Pool Contiguous Forwarding.
From Verif Require Instrument.

(** A memory resource with one upstream: the states and logs after construction, the two
    entry points and the destructor. *)
Record resource := mkRes {
  rstate : Type;
  r_init : rstate -> world -> Prop;
  r_alloc : rstate -> world -> Z -> Z -> outcome Z * rstate * world;
  r_free : rstate -> world -> Z -> Z -> Z -> outcome unit * rstate * world;
  r_destroy : rstate -> world -> world }.

(** [runs R calls s w]: the calls with their answers (newest first) made to a new resource
    [R] led to its state [s] and its upstream world [w]. *)
Inductive runs (R : resource) : list uevent -> rstate R -> world -> Prop :=
| runs_init s w : r_init R s w -> runs R [] s w
| runs_alloc l s w size align p s' w' :
    runs R l s w -> r_alloc R s w size align = (Ret p, s', w') ->
    runs R (UAlloc size align (Some p) :: l) s' w'
| runs_throw l s w size align s' w' :
    runs R l s w -> r_alloc R s w size align = (Throw bad_alloc, s', w') ->
    runs R (UAlloc size align None :: l) s' w'
| runs_free l s w p size align s' w' :
    runs R l s w -> r_free R s w p size align = (Ret tt, s', w') ->
    runs R (UFree p size align :: l) s' w'.

(** [stacked rs top bottom]: the calls [top] made to the first of the resources [rs], each
    of which is on top of the next, make the last one call upstream as in [bottom]. *)
Fixpoint stacked (rs : list resource) (top bottom : list uevent) : Prop :=
  match rs with
  | [] => top = bottom
  | R :: rs' => exists s w, runs R top s w /\ stacked rs' (ulog w) bottom
  end.

(** The same when the resources have been destroyed after the calls [top], from the top of
    the stack to the bottom (the reverse of the order of construction). *)
Fixpoint destroyed (rs : list resource) (top bottom : list uevent) : Prop :=
  match rs with
  | [] => top = bottom
  | R :: rs' => exists s w, runs R top s w /\ destroyed rs' (ulog (r_destroy R s w)) bottom
  end.

(** ** The resources *)
Definition binary_page_res : resource :=
  mkRes state (fun s w => s = init /\ fresh w) do_allocate do_deallocate destroy.

(** The logarithm of the smallest block size is a member of the pool: see [pool_construct]. *)
Definition pool_res (o : options) : resource :=
  mkRes (Z * pst)
    (fun s w => pool_construct o = Ret s /\ fresh w)
    (fun s w size align => let '(r, st, w') := pool_allocate o (fst s) (snd s) w size align in (r, (fst s, st), w'))
    (fun s w p size align => let '(r, st, w') := pool_deallocate o (fst s) (snd s) w p size align in (r, (fst s, st), w'))
    (fun s w => pool_destroy o (snd s) w).

(** Only the constructor and the destructor call upstream. *)
Definition contiguous_res (n : Z) : resource :=
  mkRes cstate
    (fun s w => exists w0, fresh w0 /\ c_construct w0 n = (Ret s, w))
    (fun s w size align => let '(r, s') := c_allocate s size align in (r, s', w))
    (fun s w p size align => if p =? 0 then (Ret tt, s, w) else (Ret tt, c_deallocate s p size align, w))
    c_destroy.

Definition identity_res : resource :=
  mkRes unit (fun _ w => fresh w)
    (fun s w size align => let '(r, w') := identity_allocate w size align in (r, s, w'))
    (fun s w p size align => let '(r, w') := identity_deallocate w p size align in (r, s, w'))
    (fun _ w => w).

(** The state is the number of calls of allocate made so far, which the predicate may use. *)
Definition conditional_res (pred : nat -> Z -> Z -> bool) : resource :=
  mkRes nat (fun n w => n = O /\ fresh w)
    (fun n w size align => let '(r, w') := conditional_allocate pred n w size align in (r, S n, w'))
    (fun n w p size align => let '(r, w') := conditional_deallocate w p size align in (r, n, w'))
    (fun _ w => w).

Definition debug_res : resource :=
  mkRes dstate (fun m w => m = [] /\ fresh w) debug_allocate debug_deallocate (fun _ w => w).

(** The constructor with an upstream resource ignores it. *)
Definition terminal_res : resource :=
  mkRes unit (fun _ w => fresh w)
    (fun s w size align => let '(r, w') := terminal_allocate w size align in (r, s, w'))
    (fun s w p size align => let '(r, w') := terminal_deallocate w p size align in (r, s, w'))
    (fun _ w => w).

(** With hooks registered before the first call. *)
Definition instrumenting_res (st0 : Instrument.istate) : resource :=
  mkRes Instrument.istate (fun s w => s = st0 /\ fresh w)
    (fun s w size align => let '(r, s', w', _) := Instrument.i_allocate s w size align in (r, s', w'))
    (fun s w p size align => let '(r, s', w', _) := Instrument.i_deallocate s w p size align in (r, s', w'))
    (fun _ w => w).

(** With a memory_monitor, which is hook [k] (core/src/utils/memory_monitor.cpp lines 19-29),
    attached before the first call. *)
Definition monitored_res (k : nat) (st0 : Instrument.istate) : resource :=
  mkRes Instrument.mstate (fun s w => s = (Instrument.attach st0 k, Instrument.mon_init) /\ fresh w)
    (Instrument.mon_allocate k) (Instrument.mon_deallocate k) (fun _ w => w).

(** core/src/memory/synchronized_memory_resource.cpp lines 45-57: calls are forwarded under a
    lock, which is free since there is one thread (more of them: SyncStack.v). *)
Definition synchronized_res : resource :=
  mkRes unit (fun _ w => fresh w)
    (fun s w size align =>
       match up_alloc w size align with (Some p, w') => (Ret p, s, w') | (None, w') => (Throw bad_alloc, s, w') end)
    (fun s w p size align => (Ret tt, s, up_free w p size align))
    (fun _ w => w).

Inductive layer :=
| LBinaryPage
| LPool (o : options)
| LContiguous (size : Z)
| LIdentity
| LConditional (pred : nat -> Z -> Z -> bool)
| LDebug
| LTerminal
| LInstrumenting (st0 : Instrument.istate)
| LMonitored (k : nat) (st0 : Instrument.istate)
| LSynchronized.

Definition layer_res (l : layer) : resource :=
  match l with
  | LBinaryPage => binary_page_res
  | LPool o => pool_res o
  | LContiguous n => contiguous_res n
  | LIdentity => identity_res
  | LConditional pred => conditional_res pred
  | LDebug => debug_res
  | LTerminal => terminal_res
  | LInstrumenting st0 => instrumenting_res st0
  | LMonitored k st0 => monitored_res k st0
  | LSynchronized => synchronized_res
  end.
