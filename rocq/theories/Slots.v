(** Raw element storage shared by the models of the vector classes. *)
From Verif Require Export Base.

(** A slot for one element: raw memory, an object of indeterminate value (started
    by an implicit-lifetime function), or an object with a value. *)
Inductive cell (A : Type) := Raw | Indet | Val (a : A).
Arguments Raw {A}. Arguments Indet {A}. Arguments Val {A} a.

Section Slots.
  Context {A : Type}.

  (** Reading an object; reading raw memory or an indeterminate value is undefined. *)
  Definition slot_read (m : list (cell A)) (i : Z) : outcome A :=
    if i <? 0 then UB else
    match nth_error m (Z.to_nat i) with Some (Val a) => Ret a | _ => UB end.

  (** Placement new at slot [i]. *)
  Definition slot_new (m : list (cell A)) (i : Z) (a : A) : outcome (list (cell A)) :=
    if (i <? 0) || (Z.of_nat (length m) <=? i) then UB else Ret (upd m (Z.to_nat i) (Val a)).

  (** Explicit destructor call; there must be an object. *)
  Definition slot_delete (m : list (cell A)) (i : Z) : outcome (list (cell A)) :=
    if i <? 0 then UB else
    match nth_error m (Z.to_nat i) with
    | Some Raw | None => UB
    | Some _ => Ret (upd m (Z.to_nat i) Raw)
    end.

  (** A [const_reference] argument: an object outside of the vector, or the element
      at a position of the vector itself. *)
  Inductive arg := AVal (a : A) | ARef (i : Z).
  Definition arg_read (m : list (cell A)) (x : arg) : outcome A :=
    match x with AVal a => Ret a | ARef i => slot_read m i end.

  (** [for (i = lo; i < lo + n; ++i) f(i)] on the memory. *)
  Fixpoint slot_loop (f : list (cell A) -> Z -> outcome (list (cell A))) (m : list (cell A)) (lo : Z) (n : nat) : outcome (list (cell A)) :=
    match n with
    | 0%nat => Ret m
    | S n' => let* m' := f m lo in slot_loop f m' (lo + 1) n'
    end.
End Slots.
Arguments arg A : clear implicits.
