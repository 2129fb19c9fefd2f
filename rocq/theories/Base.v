(** Common vocabulary: outcomes, memory blocks, upstream resources.

    Nothing in this file models a particular function of vecmem; it fixes the
    conventions used by all model files. *)
From Coq Require Export List Arith ZArith Lia Bool.
From Coq Require Export ZifyBool ZifyNat.
Export ListNotations.
Open Scope Z_scope.
Ltac Zify.zify_post_hook ::= Z.div_mod_to_equations.

(** C++ exceptions that the modelled code throws. *)
Inductive exn := bad_alloc | logic_error | out_of_range | length_error
               | runtime_error | invalid_argument.

(** Result of a call: a value, an exception, or undefined behaviour.  A failed
    [assert] is also [UB]: in release builds the code goes on with the violated
    precondition. *)
Inductive outcome (A : Type) := Ret (a : A) | Throw (e : exn) | UB.
Arguments Ret {A} a.
Arguments Throw {A} e.
Arguments UB {A}.

(** ** Address ranges *)

(** A memory block: start address, size in bytes, alignment it was requested
    with. *)
Record block := mkBlock { bptr : Z; bsize : Z; balign : Z }.

Definition block_eq_dec (x y : block) : {x = y} + {x <> y}.
Proof. decide equality; apply Z.eq_dec. Defined.

(** The byte [x] belongs to the block. *)
Definition in_block (x : Z) (b : block) : Prop :=
  bptr b <= x < bptr b + bsize b.

(** Two blocks share a byte. *)
Definition overlap (b c : block) : Prop :=
  exists x, in_block x b /\ in_block x c.

(** Every byte of [b] is a byte of [c]. *)
Definition inside (b c : block) : Prop :=
  forall x, in_block x b -> in_block x c.

(** No two entries (at different positions) of a list of blocks overlap. *)
Fixpoint pairwise_disjoint (l : list block) : Prop :=
  match l with
  | [] => True
  | b :: l' => (forall c, In c l' -> ~ overlap b c) /\ pairwise_disjoint l'
  end.

(** Remove the first occurrence of a block. *)
Fixpoint remove1 (b : block) (l : list block) : list block :=
  match l with
  | [] => []
  | c :: l' => if block_eq_dec b c then l' else c :: remove1 b l'
  end.

(** ** Upstream memory resources

    An upstream [memory_resource] is an arbitrary (adversarial) object.  Its
    answers are given by an oracle indexed by the number of calls made so far;
    [None] stands for [throw std::bad_alloc()].  All calls are recorded, newest
    first. *)
Inductive uevent :=
| UAlloc (size align : Z) (res : option Z)
| UFree (p size align : Z).

Record world := mkWorld { ulog : list uevent; uorc : nat -> option Z }.

Definition up_alloc (w : world) (size align : Z) : option Z * world :=
  let r := uorc w (length (ulog w)) in
  (r, mkWorld (UAlloc size align r :: ulog w) (uorc w)).

Definition up_free (w : world) (p size align : Z) : world :=
  mkWorld (UFree p size align :: ulog w) (uorc w).

(** Upstream blocks that are allocated and not yet freed, given the log. *)
Fixpoint ulive (l : list uevent) : list block :=
  match l with
  | [] => []
  | UAlloc s a (Some p) :: l' => mkBlock p s a :: ulive l'
  | UAlloc _ _ None :: l' => ulive l'
  | UFree p s a :: l' => remove1 (mkBlock p s a) (ulive l')
  end.

(** What an upstream resource promises: a block it returns is non-null, lies in
    the 64-bit address space (with room for the one-past-the-end pointer), is
    aligned as requested, and does not overlap any upstream block that is
    currently live. *)
Fixpoint upstream_ok (l : list uevent) : Prop :=
  match l with
  | [] => True
  | UAlloc s a (Some p) :: l' =>
      0 < p /\ p + s < 2 ^ 64 /\ (a | p) /\
      (forall c, In c (ulive l') -> ~ overlap (mkBlock p s a) c) /\
      upstream_ok l'
  | UAlloc _ _ None :: l' => upstream_ok l'
  | UFree _ _ _ :: l' => upstream_ok l'
  end.

(** What the user of an upstream resource promises: it only frees live blocks,
    with the arguments they were allocated with. *)
Fixpoint frees_ok (l : list uevent) : Prop :=
  match l with
  | [] => True
  | UAlloc _ _ _ :: l' => frees_ok l'
  | UFree p s a :: l' => In (mkBlock p s a) (ulive l') /\ frees_ok l'
  end.

(** [alignof(std::max_align_t)] on the 64-bit platforms considered: the default
    alignment argument of [memory_resource::allocate]. *)
Definition max_align : Z := 16.

(** Replace the [n]-th element of a list (no change if out of range). *)
Fixpoint upd {A} (l : list A) (n : nat) (x : A) : list A :=
  match l, n with
  | [], _ => []
  | _ :: l', O => x :: l'
  | y :: l', S n' => y :: upd l' n' x
  end.

(** ** Histories of a memory resource

    [alloc] and [free] are the entry points of a resource with state [S];
    [legal] are the requests allowed by the property at hand.  [reach s w live]:
    a history of calls starting in [s0] led to state [s], upstream world [w], and
    [live] are the blocks handed out and not yet returned.  The caller only
    deallocates live blocks, with the arguments of the allocation.  A request of
    size 0 does not hand out memory. *)
Section History.
  Variable S : Type.
  Variable alloc : S -> world -> Z -> Z -> outcome Z * S * world.
  Variable free : S -> world -> Z -> Z -> Z -> outcome unit * S * world.
  Variable legal : Z -> Z -> Prop.
  Variable s0 : S.
  Variable w0 : world -> Prop.

  Inductive reach : S -> world -> list block -> Prop :=
  | reach_init w : w0 w -> reach s0 w []
  | reach_alloc s w live size align p s' w' :
      reach s w live -> legal size align ->
      alloc s w size align = (Ret p, s', w') ->
      reach s' w' (if size =? 0 then live else mkBlock p size align :: live)
  | reach_alloc_throw s w live size align e s' w' :
      reach s w live -> legal size align ->
      alloc s w size align = (Throw e, s', w') ->
      reach s' w' live
  | reach_free s w live b s' w' :
      reach s w live -> In b live ->
      free s w (bptr b) (bsize b) (balign b) = (Ret tt, s', w') ->
      reach s' w' (remove1 b live)
  | reach_free_null s w live size align s' w' :
      reach s w live ->
      free s w 0 size align = (Ret tt, s', w') ->
      reach s' w' live.
End History.
Arguments reach {S} alloc free legal s0 w0 _ _ _.

(** The world before any upstream call. *)
Definition fresh (w : world) : Prop := ulog w = [].

(** A power of two. *)
Definition pow2 (a : Z) : Prop := exists k, 0 <= k /\ a = 2 ^ k.

Definition bind {A B} (o : outcome A) (f : A -> outcome B) : outcome B :=
  match o with Ret a => f a | Throw e => Throw e | UB => UB end.
Notation "'let*' x ':=' e 'in' k" := (bind e (fun x => k))
  (at level 200, x pattern, e at level 100, k at level 200).

(** [assert(c)] followed by [k]. *)
Definition assert {A} (c : bool) (k : outcome A) : outcome A :=
  if c then k else UB.
