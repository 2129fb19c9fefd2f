(** The memory resources of the variables of edm::host.

    Sources (core/include/vecmem): edm/host.hpp lines 28-157 (no copy or move functions are
    declared; m_data and m_resource, lines 148-151), edm/details/host_traits.hpp lines 28-53
    (host_type), 70-83 (host_alloc), 134-171 (host_resize, host_reserve); edm/impl/host.ipp lines
    21-25 (constructor), 66-97 (get), 157-163 (resource); containers/details/resize_jagged_vector.hpp
    lines 36-39; memory/polymorphic_allocator.hpp, containers/vector.hpp and
    containers/jagged_vector.hpp (the vectors are std::vector with std::pmr::polymorphic_allocator).

    std::vector and std::pmr::polymorphic_allocator are modelled from the C++ standard.
    Simplifications: a resource is a number, 0 for std::pmr::get_default_resource(); resources compare
    equal only to themselves; elements are numbers; no allocation fails; a vector that was
    moved from is empty, as in all implementations. *)
From Verif Require Import Base.
From Coq Require Import ZArith List Bool Arith.
Import ListNotations.

(** ** std::vector<A, std::pmr::polymorphic_allocator<A>> *)
Record vec (A : Type) := mkVec { vres : nat; velems : list A }.
Arguments mkVec {A} _ _.
Arguments vres {A} _.
Arguments velems {A} _.

Section Vec.
  Context {A : Type}.
  (** Construction of an element from another one by the allocator with resource [r]
      (uses-allocator construction), and assignment [put old new] to an element. *)
  Variable ctor : nat -> A -> A.
  Variable put : A -> A -> A.

  (** vector(v): select_on_container_copy_construction gives the default resource. *)
  Definition vcopy (v : vec A) : vec A := mkVec 0 (map (ctor 0) (velems v)).
  (** vector(std::move(v)): the new vector, what is left of [v]. *)
  Definition vmove (v : vec A) : vec A * vec A := (v, mkVec (vres v) []).
  (** Moving all elements to new memory. *)
  Definition relocate (re : bool) (v : vec A) : list A := if re then map (ctor (vres v)) (velems v) else velems v.
  (** resize(n, x) and push_back(x); [re]: the memory is reallocated. *)
  Definition vresize (re : bool) (n : nat) (x : A) (v : vec A) : vec A :=
    mkVec (vres v) (firstn n (relocate re v) ++ repeat (ctor (vres v) x) (n - length (velems v))).
  Definition vpush (re : bool) (x : A) (v : vec A) : vec A := mkVec (vres v) (relocate re v ++ [ctor (vres v) x]).
  (** Element assignment in place: elements that exist are assigned to, others constructed. *)
  Fixpoint put_all (r : nat) (old new : list A) : list A :=
    match old, new with
    | o :: old', x :: new' => put o x :: put_all r old' new'
    | [], _ => map (ctor r) new
    | _, [] => []
    end.
  (** [d = s]: the allocator of [d] stays (propagate_on_container_copy_assignment is false). *)
  Definition vassign (re : bool) (d s : vec A) : vec A :=
    mkVec (vres d) (if re then map (ctor (vres d)) (velems s) else put_all (vres d) (velems d) (velems s)).
  (** [d = std::move(s)]: with equal resources the memory is taken over, else the elements are
      moved one by one. *)
  Definition vassign_move (re : bool) (d s : vec A) : vec A * vec A :=
    (if Nat.eqb (vres d) (vres s) then mkVec (vres d) (velems s) else vassign re d s, mkVec (vres s) []).
End Vec.

(** Elements that are numbers, and elements that are vectors of numbers. *)
Definition zctor (r : nat) (z : Z) : Z := z.
Definition zput (o z : Z) : Z := z.
Definition ictor (r : nat) (v : vec Z) : vec Z := mkVec r (velems v).
Definition iput (o v : vec Z) : vec Z := mkVec (vres o) (velems v).

(** ** edm::host *)
(** Variables, host_traits.hpp lines 28-53. *)
Inductive var := VScalar (v : vec Z) | VVec (v : vec Z) | VJag (v : vec (vec Z)).
(** The type of a variable; [ptr], [int]: memory_resource* and int convert implicitly to the
    element type. *)
Inductive kind := KScalar (ptr int : bool) | KVec (ptr : bool) | KJag.
(** host_alloc::make, lines 70-83: [vector{1, &mr}] and [vector{&mr}].  An initializer_list constructor
    is preferred if there is one that fits; [vector(const Allocator &)] is explicit, so that
    vectors are not made from resources implicitly. *)
Definition make (r : nat) (addr : Z) (k : kind) : var :=
  match k with
  | KScalar ptr int => VScalar (if ptr && int then mkVec 0 [1%Z; addr] else mkVec r [0%Z])
  | KVec ptr => VVec (if ptr then mkVec 0 [addr] else mkVec r [])
  | KJag => VJag (mkVec r [])
  end.
(** A container: m_resource and m_data. *)
Record host := mkHost { h_res : nat; h_vars : list var }.
Definition host_new (r : nat) (addr : Z) (ks : list kind) : host := mkHost r (map (make r addr) ks).
(** The implicit copy and move functions, variable by variable; m_resource is a
    std::reference_wrapper, which is rebound by assignment. *)
Definition var_copy (x : var) : var :=
  match x with VScalar v => VScalar (vcopy zctor v) | VVec v => VVec (vcopy zctor v) | VJag v => VJag (vcopy ictor v) end.
Definition var_move (x : var) : var * var :=
  match x with
  | VScalar v => let '(a, b) := vmove v in (VScalar a, VScalar b)
  | VVec v => let '(a, b) := vmove v in (VVec a, VVec b)
  | VJag v => let '(a, b) := vmove v in (VJag a, VJag b)
  end.
Definition var_assign (re : bool) (d s : var) : var :=
  match d, s with
  | VScalar v, VScalar w => VScalar (vassign zctor zput re v w)
  | VVec v, VVec w => VVec (vassign zctor zput re v w)
  | VJag v, VJag w => VJag (vassign ictor iput re v w)
  | _, _ => d
  end.
Definition var_assign_move (re : bool) (d s : var) : var * var :=
  match d, s with
  | VScalar v, VScalar w => let '(a, b) := vassign_move zctor zput re v w in (VScalar a, VScalar b)
  | VVec v, VVec w => let '(a, b) := vassign_move zctor zput re v w in (VVec a, VVec b)
  | VJag v, VJag w => let '(a, b) := vassign_move ictor iput re v w in (VJag a, VJag b)
  | _, _ => (d, s)
  end.
Fixpoint map2 {A B C} (f : A -> B -> C) (l : list A) (l' : list B) : list C :=
  match l, l' with a :: r, b :: r' => f a b :: map2 f r r' | _, _ => [] end.
(** host_resize, lines 134-150, with resize_jagged_vector. *)
Definition var_resize (re : bool) (n : nat) (x : var) : var :=
  match x with
  | VScalar v => VScalar v
  | VVec v => VVec (vresize zctor re n 0%Z v)
  | VJag v => VJag (vresize ictor re n (mkVec (vres v) []) v)
  end.
(** host_reserve, lines 158-171: at most reallocation. *)
Definition var_reserve (re : bool) (x : var) : var :=
  match x with
  | VScalar v => VScalar v
  | VVec v => VVec (mkVec (vres v) (relocate zctor re v))
  | VJag v => VJag (mkVec (vres v) (relocate ictor re v))
  end.
(** Changes of a variable by its user, through get: a new element at the end of a vector; for jagged
    vectors a new inner vector copied from [w], assignment of [w] to inner vector [j], a new element at
    the end of inner vector [j]. *)
Inductive change := PushBack (z : Z) | PushInner (w : vec Z) | AssignInner (j : nat) (w : vec Z) | PushTo (j : nat) (z : Z).
Definition var_change (re : bool) (c : change) (x : var) : var :=
  match c, x with
  | PushBack z, VVec v => VVec (vpush zctor re z v)
  | PushInner w, VJag v => VJag (vpush ictor re w v)
  | AssignInner j w, VJag v => match nth_error (velems v) j with Some o => VJag (mkVec (vres v) (upd (velems v) j (vassign zctor zput re o w))) | None => x end
  | PushTo j z, VJag v => match nth_error (velems v) j with Some o => VJag (mkVec (vres v) (upd (velems v) j (vpush zctor re z o))) | None => x end
  | _, _ => x
  end.
(** get<INDEX>() of a scalar: element 0 of its vector, host.ipp lines 66-97. *)
Definition get_scalar (x : var) : outcome Z :=
  match x with VScalar v => match velems v with z :: _ => Ret z | [] => UB end | _ => UB end.

(** ** Programs: containers are numbered in the order of their construction *)
Inductive cmd := New (r : nat) (addr : Z) (ks : list kind) | CopyFrom (i : nat) | MoveFrom (i : nat) | Assign (re : bool) (i j : nat)
  | AssignMove (re : bool) (i j : nat) | Resize (re : bool) (i n : nat) | Reserve (re : bool) (i : nat) | Change (re : bool) (i k : nat) (c : change).
Definition on (i : nat) (f : host -> host) (l : list host) : list host :=
  match nth_error l i with Some h => upd l i (f h) | None => l end.
Definition step (l : list host) (c : cmd) : list host :=
  match c with
  | New r addr ks => l ++ [host_new r addr ks]
  | CopyFrom i => match nth_error l i with Some h => l ++ [mkHost (h_res h) (map var_copy (h_vars h))] | None => l end
  | MoveFrom i =>
      match nth_error l i with
      | Some h => upd l i (mkHost (h_res h) (map (fun x => snd (var_move x)) (h_vars h))) ++ [mkHost (h_res h) (map (fun x => fst (var_move x)) (h_vars h))]
      | None => l
      end
  | Assign re i j =>
      match nth_error l j with
      | Some s => if Nat.eqb i j then l else on i (fun h => mkHost (h_res s) (map2 (var_assign re) (h_vars h) (h_vars s))) l
      | None => l
      end
  | AssignMove re i j =>
      match nth_error l i, nth_error l j with
      | Some h, Some s =>
          if Nat.eqb i j then l else
          upd (upd l i (mkHost (h_res s) (map2 (fun d x => fst (var_assign_move re d x)) (h_vars h) (h_vars s))))
            j (mkHost (h_res s) (map2 (fun d x => snd (var_assign_move re d x)) (h_vars h) (h_vars s)))
      | _, _ => l
      end
  | Resize re i n => on i (fun h => mkHost (h_res h) (map (var_resize re n) (h_vars h))) l
  | Reserve re i => on i (fun h => mkHost (h_res h) (map (var_reserve re) (h_vars h))) l
  | Change re i k c => on i (fun h => mkHost (h_res h) (match nth_error (h_vars h) k with Some x => upd (h_vars h) k (var_change re c x) | None => h_vars h end)) l
  end.
Definition exec (cs : list cmd) : list host := fold_left step cs [].
