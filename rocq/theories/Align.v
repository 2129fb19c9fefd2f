(** Model of [std::align] and [details::is_aligned]. *)
From Verif Require Import Base IntMath.

(** [std::align(align, size, ptr, space)] as in libstdc++ ([<bits/align.h>]):
    {[
      if (space < size) return nullptr;
      aligned = (intptr - 1u + align) & -align;
      diff = aligned - intptr;
      if (diff > (space - size)) return nullptr;
      space -= diff; return ptr = aligned;
    ]}
    in 64-bit modular arithmetic.  The result is the new [ptr] and [space]. *)
Definition std_align (align size ptr space : Z) : option (Z * Z) :=
  if space <? size then None
  else
    let aligned := Z.land (wrap64 (ptr - 1 + align)) (wrap64 (- align)) in
    let diff := wrap64 (aligned - ptr) in
    if space - size <? diff then None else Some (aligned, space - diff).

(** core/src/memory/details/is_aligned.cpp lines 19-28: [std::align] with a dummy
    size of [2 * alignment] and space of [4 * alignment], in modular arithmetic;
    a failing [std::align] returns [nullptr]. *)
Definition is_aligned (ptr alignment : Z) : bool :=
  match std_align alignment (wrap64 (2 * alignment)) ptr (wrap64 (4 * alignment)) with
  | Some (q, _) => q =? ptr
  | None => ptr =? 0
  end.
