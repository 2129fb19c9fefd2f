(** Model of core/src/memory/synchronized_memory_resource.cpp, lines 45-57: any
    number of threads call [do_allocate] / [do_deallocate], each of which is
    [lock_guard lock(m_mutex); return m_upstream.f(...)].

    The upstream resource is an arbitrary sequential object: [ustep].  A call
    from thread [t] (its [k]-th call) passes through the stages
      0 the call is invoked, 1 the mutex is acquired, 2 the upstream call begins,
      3 the upstream call ends, 4 the mutex is released, 5 the call returns.
    The mutex is modelled as such (at most one holder); threads interleave
    arbitrarily between stages. *)
From Verif Require Import Base.

Section Sync.
  Variables U Call Res : Type.
  Variable ustep : U -> Call -> U * Res.
  Variable u0 : U.

  (** An observable action: thread, call number, stage, arguments, result (known
      from stage 3 on). *)
  Record label := mkL { lt : nat; lk : nat; lg : nat; lc : Call; lr : option Res }.

  (** The local state of a thread: number of finished calls, stages passed in the
      current call (0: idle), current arguments and result. *)
  Record tstate := mkT { cnt : nat; phase : nat; cur : option Call; res : option Res }.
  Record state := mkS { lock : option nat; th : nat -> tstate; ust : U }.

  Definition set (f : nat -> tstate) (t : nat) (x : tstate) : nat -> tstate :=
    fun u => if Nat.eqb u t then x else f u.

  Inductive step : state -> label -> state -> Prop :=
  | st_inv s t c : phase (th s t) = 0%nat ->
      step s (mkL t (cnt (th s t)) 0 c None)
        (mkS (lock s) (set (th s) t (mkT (cnt (th s t)) 1 (Some c) None)) (ust s))
  | st_lock s t c : phase (th s t) = 1%nat -> cur (th s t) = Some c -> lock s = None ->
      step s (mkL t (cnt (th s t)) 1 c None)
        (mkS (Some t) (set (th s) t (mkT (cnt (th s t)) 2 (Some c) None)) (ust s))
  | st_begin s t c : phase (th s t) = 2%nat -> cur (th s t) = Some c ->
      step s (mkL t (cnt (th s t)) 2 c None)
        (mkS (lock s) (set (th s) t (mkT (cnt (th s t)) 3 (Some c) None)) (ust s))
  | st_end s t c u' r : phase (th s t) = 3%nat -> cur (th s t) = Some c ->
      ustep (ust s) c = (u', r) ->
      step s (mkL t (cnt (th s t)) 3 c (Some r))
        (mkS (lock s) (set (th s) t (mkT (cnt (th s t)) 4 (Some c) (Some r))) u')
  | st_unlock s t c r : phase (th s t) = 4%nat -> cur (th s t) = Some c -> res (th s t) = Some r ->
      step s (mkL t (cnt (th s t)) 4 c (Some r))
        (mkS None (set (th s) t (mkT (cnt (th s t)) 5 (Some c) (Some r))) (ust s))
  | st_ret s t c r : phase (th s t) = 5%nat -> cur (th s t) = Some c -> res (th s t) = Some r ->
      step s (mkL t (cnt (th s t)) 5 c (Some r))
        (mkS (lock s) (set (th s) t (mkT (S (cnt (th s t))) 0 None None)) (ust s)).

  Definition init : state := mkS None (fun _ => mkT 0 0 None None) u0.

  (** Executions; the trace is oldest first. *)
  Inductive exec : list label -> state -> Prop :=
  | exec_nil : exec [] init
  | exec_snoc tr s l s' : exec tr s -> step s l s' -> exec (tr ++ [l]) s'.

  (** ** Specification vocabulary *)

  Definition invoked (tr : list label) (i t k : nat) (c : Call) : Prop :=
    nth_error tr i = Some (mkL t k 0 c None).
  Definition begins (tr : list label) (i t k : nat) (c : Call) : Prop :=
    nth_error tr i = Some (mkL t k 2 c None).
  Definition ends (tr : list label) (i t k : nat) (c : Call) (r : Res) : Prop :=
    nth_error tr i = Some (mkL t k 3 c (Some r)).
  Definition returned (tr : list label) (i t k : nat) (c : Call) (r : Res) : Prop :=
    nth_error tr i = Some (mkL t k 5 c (Some r)).

  (** The upstream calls in the order in which they happened. *)
  Definition upstream_calls (tr : list label) : list (Call * option Res) :=
    map (fun l => (lc l, lr l)) (filter (fun l => Nat.eqb (lg l) 3) tr).

  (** A sequential run of the upstream resource. *)
  Inductive seq_run : U -> list (Call * option Res) -> U -> Prop :=
  | seq_nil u : seq_run u [] u
  | seq_cons u c u1 r l u2 : ustep u c = (u1, r) -> seq_run u1 l u2 ->
      seq_run u ((c, Some r) :: l) u2.
End Sync.
Arguments mkL {Call Res}.
Arguments lt {Call Res}.
Arguments lk {Call Res}.
Arguments lg {Call Res}.
Arguments lc {Call Res}.
Arguments lr {Call Res}.
Arguments exec {U Call Res} ustep u0 _ _.
Arguments step {U Call Res} ustep _ _ _.
Arguments init {U Call Res} u0.
Arguments invoked {Call Res}.
Arguments begins {Call Res}.
Arguments ends {Call Res}.
Arguments returned {Call Res}.
Arguments upstream_calls {Call Res}.
Arguments seq_run {U Call Res}.
Arguments set {Call Res}.
Arguments cnt {Call Res}.
Arguments phase {Call Res}.
Arguments cur {Call Res}.
Arguments res {Call Res}.
Arguments mkT {Call Res}.
Arguments mkS {U Call Res}.
Arguments th {U Call Res}.
Arguments lock {U Call Res}.
Arguments ust {U Call Res}.
