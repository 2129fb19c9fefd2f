(** edm::host: the host-side SoA container.

    Sources (core/include/vecmem/edm): details/host_traits.hpp (host_alloc lines 70-83,
    get_host_size 93-126, host_resize 134-150), impl/host.ipp (constructor 21-25, size
    27-38, resize 40-52, get 68-97, at 99-125, operator[] 127-141, get_data 166-229),
    details/proxy_traits.hpp (make, lines 60-218), details/device_traits.hpp (capacity
    check, 102-154).

    Simplifications: the element types of all variables are one type [A]; every vector
    variable carries its value-initialised element; std::vector is a list; growing a
    vector throws bad_alloc when [fails] says so for the position of the variable;
    shrinking never throws; a pointer to a memory resource does not convert
    implicitly to [A] (HostMemory.v has the other case). *)
From Verif Require Export Base.

Section Host.
  Context {A : Type}.

  (** host_traits.hpp lines 31-53: a scalar is a vector of one element. *)
  Inductive hvar := HScalar (l : list A) | HVec (dflt : A) (l : list A) | HJag (l : list (list A)).

  Inductive hkind := KScalar (dflt : A) | KVec (dflt : A) | KJag.

  (** host_alloc::make: lines 72-74 and 79-82. *)
  Definition h_make (k : hkind) : hvar :=
    match k with KScalar d => HScalar [d] | KVec d => HVec d [] | KJag => HJag [] end.
  Definition h_new (ks : list hkind) : list hvar := map h_make ks.

  (** get_host_size: lines 94-126. *)
  Fixpoint get_host_size (vs : list hvar) (size : Z) (known : bool) : outcome Z :=
    match vs with
    | [] => UB
    | v :: rest =>
        let '(var_size, var_known) :=
          match v with
          | HScalar _ => (size, false)
          | HVec _ l => (Z.of_nat (length l), true)
          | HJag l => (Z.of_nat (length l), true)
          end in
        if known && var_known && negb (var_size =? size) then Throw length_error else
        match rest with
        | [] => if known || var_known then Ret var_size else Throw length_error
        | _ => get_host_size rest var_size (known || var_known)
        end
    end.
  Definition h_size (vs : list hvar) : outcome Z := get_host_size vs 0 false.

  (** std::vector::resize. *)
  Definition list_resize {B} (d : B) (n : nat) (l : list B) : list B :=
    firstn n l ++ repeat d (n - length l).

  (** host_resize: lines 135-150; [k] is the position of the first variable. The state is
      returned together with the outcome, since earlier variables stay resized. *)
  Fixpoint host_resize (fails : nat -> bool) (k : nat) (n : nat) (vs : list hvar) : outcome unit * list hvar :=
    match vs with
    | [] => (Ret tt, [])
    | v :: rest =>
        let grow {B} (l : list B) := Nat.ltb (length l) n && fails k in
        let r := match v with
                 | HScalar _ => Some v
                 | HVec d l => if grow l then None else Some (HVec d (list_resize d n l))
                 | HJag l => if grow l then None else Some (HJag (list_resize [] n l))
                 end in
        match r with
        | None => (Throw bad_alloc, v :: rest)
        | Some v' => let '(o, rest') := host_resize fails (S k) n rest in (o, v' :: rest')
        end
    end.
  Definition h_resize (fails : nat -> bool) (n : nat) (vs : list hvar) : outcome unit * list hvar :=
    host_resize fails 0 n vs.

  (** What a proxy refers to: the scalar, an element, or an inner vector. *)
  Inductive hitem := IElem (a : A) | IRow (l : list A).

  (** proxy_var_type::make: proxy_traits.hpp lines 82-84 (scalar), 120-123 (vector, at(i)),
      213-217 (jagged vector, at(i)); get of a scalar is element 0 (host.ipp line 77). *)
  Definition proxy_item (i : nat) (v : hvar) : outcome hitem :=
    match v with
    | HScalar l => match l with a :: _ => Ret (IElem a) | [] => UB end
    | HVec _ l => match nth_error l i with Some a => Ret (IElem a) | None => Throw out_of_range end
    | HJag l => match nth_error l i with Some r => Ret (IRow r) | None => Throw out_of_range end
    end.
  Fixpoint h_index (i : nat) (vs : list hvar) : outcome (list hitem) :=
    match vs with
    | [] => Ret []
    | v :: rest => let* x := proxy_item i v in let* xs := h_index i rest in Ret (x :: xs)
    end.
  (** at: host.ipp lines 99-111. *)
  Definition h_at (i : nat) (vs : list hvar) : outcome (list hitem) :=
    let* n := h_size vs in
    if Z.of_nat i >=? n then Throw out_of_range else h_index i vs.

  (** get_data: host.ipp lines 205-229; vector.ipp lines 12-17 and jagged_vector.ipp lines 44-66.
      Capacity of the container and of its variables ([None] for scalars): 32 bits for the
      container and one dimensional vectors, 64 bits for the outer size of a jagged vector. *)
  Definition var_capacity (v : hvar) : option Z :=
    match v with
    | HScalar _ => None
    | HVec _ l => Some (Z.of_nat (length l) mod 2 ^ 32)
    | HJag l => Some (Z.of_nat (length l))
    end.
  Definition h_get_data (vs : list hvar) : outcome (Z * list (option Z)) :=
    let* n := h_size vs in Ret (n mod 2 ^ 32, map var_capacity vs).

  (** device_capacities_match: device_traits.hpp lines 102-154. *)
  Definition capacities_match (d : Z * list (option Z)) : bool :=
    forallb (fun c => match c with None => true | Some c => fst d =? c end) (snd d).
End Host.
Arguments hvar A : clear implicits. Arguments hkind A : clear implicits. Arguments hitem A : clear implicits.
