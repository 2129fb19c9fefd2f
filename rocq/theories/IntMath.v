(** Model of core/src/utils/integer_math.hpp. *)
From Verif Require Import Base.

(** Number of values of [std::size_t] (64-bit). *)
Definition two64 : Z := 2 ^ 64.
Definition wrap64 (x : Z) : Z := x mod two64.

(** integer_math.hpp:26-29 [is_power_of_2]: [(x & (x - 1)) == 0], with the
    subtraction in 64-bit modular arithmetic. *)
Definition is_power_of_2 (x : Z) : bool := Z.land x (wrap64 (x - 1)) =? 0.

(** integer_math.hpp:43-49, the portable branch of [clzl]:
    [for (b = 0; !((i << b) & 1<<63); ++b);].  [fuel] bounds the loop; a shift by
    64 or more is undefined behaviour, so the caller gives fuel 64 and [None] is
    reached only for [i = 0]. *)
Fixpoint clzl_loop (fuel : nat) (i b : Z) : option Z :=
  match fuel with
  | O => None
  | S f => if Z.land (wrap64 (Z.shiftl i b)) (2 ^ 63) =? 0
           then clzl_loop f i (b + 1) else Some b
  end.

(** integer_math.hpp:36-51 [clzl].  [__builtin_clzl(0)] is undefined too, hence
    [None] at 0 stands for undefined behaviour in both branches. *)
Definition clzl (i : Z) : option Z := clzl_loop 64 i 0.

(** integer_math.hpp:58-63 [log2]. *)
Definition log2 (x : Z) : option Z :=
  match clzl x with Some c => Some (63 - c) | None => None end.

(** integer_math.hpp:70-82 [log2_ri]. *)
Definition log2_ri (x : Z) : option Z :=
  match log2 x with
  | Some r => Some (if is_power_of_2 x then r else r + 1)
  | None => None
  end.

(** integer_math.hpp:91-95, the loop of [round_up]. *)
Fixpoint round_up_loop (fuel : nat) (i size : Z) : Z :=
  match fuel with
  | O => 0
  | S f => if size <=? wrap64 (Z.shiftl 1 i) then i
           else round_up_loop f (i + 1) size
  end.

(** integer_math.hpp:88-98 [round_up], release build (the [assert] of line 90 is
    not evaluated). *)
Definition round_up (size : Z) : Z := round_up_loop 64 0 size.

(** integer_math.hpp:88-98 [round_up], debug build. *)
Definition round_up_checked (size : Z) : outcome Z :=
  if size <=? 2 ^ 63 then Ret (round_up size) else UB.
