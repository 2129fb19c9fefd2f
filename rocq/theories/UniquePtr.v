(** Model of core/include/vecmem/memory/unique_ptr.hpp, its deleters, and the
    object functions of core/include/vecmem/memory/impl/allocator.ipp. *)
From Verif Require Import Base IntMath.

(** What happens to the memory resource and to objects, oldest first.  The
    element size is carried along with the address of an object. *)
Inductive ev :=
| EAlloc (size align : Z) (res : option Z)
| EFree (p size align : Z)
| ECtor (a esz : Z)
| EDtor (a esz : Z).

(** A unique pointer with its deleter
    (details/unique_obj_deleter.hpp lines 172-175, details/unique_alloc_deleter.hpp).
    [u_dtor] tells unique_obj_deleter from unique_alloc_deleter; [u_esz] is the
    size of the static element type; [u_ptr = 0] is an empty pointer, whose
    deleter is never called by [std::unique_ptr]. *)
Record uptr := mkU { u_ptr : Z; u_size : Z; u_align : Z; u_elems : nat; u_esz : Z; u_dtor : bool }.
Definition u_null : uptr := mkU 0 0 0 0 1 false.

(** memory_resource::allocate: zero bytes give nullptr (details/
    memory_resource_impl.hpp lines 19-38); otherwise the resource answers [res]. *)
Definition mr_alloc (size align : Z) (res : option Z) : outcome Z * list ev :=
  if size =? 0 then (Ret 0, [])
  else match res with
       | Some p => (Ret p, [EAlloc size align res])
       | None => (Throw bad_alloc, [EAlloc size align None])
       end.

(** The construction loop, unique_ptr.hpp lines 127-131; [fail] is the index of
    the element whose constructor throws, if any.  The elements constructed
    before stay as they are. *)
Fixpoint construct (p esz : Z) (i n : nat) (fail : option nat) : outcome unit * list ev :=
  match n with
  | O => (Ret tt, [])
  | S n' =>
      match fail with
      | Some k => if Nat.eqb k i then (Throw runtime_error, [])
                  else let '(r, l) := construct p esz (S i) n' fail in
                       (r, ECtor (p + Z.of_nat i * esz) esz :: l)
      | None => let '(r, l) := construct p esz (S i) n' fail in
                (r, ECtor (p + Z.of_nat i * esz) esz :: l)
      end
  end.

(** make_unique_obj<T>, lines 74-94, and make_unique_obj<T[]>, lines 113-137 (the
    former is the case [n = 1]). *)
Definition make_unique_obj (esz : Z) (n : nat) (res : option Z) (fail : option nat)
  : outcome uptr * list ev :=
  let s := wrap64 (Z.of_nat n * esz) in
  match mr_alloc s max_align res with
  | (Ret p, l) =>
      match construct p esz 0 n fail with
      | (Ret _, l') => (Ret (mkU p s 0 n esz true), l ++ l')
      | (Throw e, l') => (Throw e, l ++ l')
      | (UB, l') => (UB, l ++ l')
      end
  | (Throw e, l) => (Throw e, l)
  | (UB, l) => (UB, l)
  end.

(** make_unique_alloc<T>, lines 165-195, and make_unique_alloc<T[]>, lines
    224-256; the copying variants (lines 296-330, 370-407) additionally call the
    copy helper with [p] and [s]. *)
Definition make_unique_alloc (esz : Z) (n : nat) (res : option Z) : outcome uptr * list ev :=
  let s := wrap64 (Z.of_nat n * esz) in
  match mr_alloc s max_align res with
  | (Ret p, l) => (Ret (mkU p s 0 n esz false), l)
  | (Throw e, l) => (Throw e, l)
  | (UB, l) => (UB, l)
  end.

(** unique_obj_deleter::operator() (lines 124-163 of its header): destroy in
    order, then deallocate; unique_alloc_deleter::operator() only deallocates. *)
Fixpoint destruct_all (p esz : Z) (i n : nat) : list ev :=
  match n with
  | O => []
  | S n' => EDtor (p + Z.of_nat i * esz) esz :: destruct_all p esz (S i) n'
  end.
Definition u_destroy (u : uptr) : list ev :=
  if u_ptr u =? 0 then []
  else (if u_dtor u then destruct_all (u_ptr u) (u_esz u) 0 (u_elems u) else []) ++
       [EFree (u_ptr u) (u_size u) (if 0 <? u_align u then u_align u else max_align)].

(** Programs over a fixed set of unique pointer variables.  Move assignment is
    [reset(other.release()); deleter = move(other.deleter)] ([std::unique_ptr]). *)
Inductive uop :=
| UMakeObj (i : nat) (esz : Z) (n : nat) (res : option Z)
| UMakeAlloc (i : nat) (esz : Z) (n : nat) (res : option Z)
| UMove (i j : nat)
| UReset (i : nat).

Definition get (s : list uptr) (i : nat) : uptr := nth i s u_null.
Definition u_assign (s : list uptr) (i : nat) (u : uptr) : list uptr * list ev :=
  (upd s i u, u_destroy (get s i)).
Definition u_step (s : list uptr) (o : uop) : list uptr * list ev :=
  match o with
  | UMakeObj i esz n res =>
      match make_unique_obj esz n res None with
      | (Ret u, l) => let '(s', l') := u_assign s i u in (s', l ++ l')
      | (_, l) => (s, l)
      end
  | UMakeAlloc i esz n res =>
      match make_unique_alloc esz n res with
      | (Ret u, l) => let '(s', l') := u_assign s i u in (s', l ++ l')
      | (_, l) => (s, l)
      end
  | UMove i j =>
      if Nat.eqb i j then (s, [])
      else let u := get s i in u_assign (upd s i u_null) j u
  | UReset i => u_assign s i u_null
  end.
Fixpoint u_run (s : list uptr) (ops : list uop) : list uptr * list ev :=
  match ops with
  | [] => (s, [])
  | o :: ops' => let '(s', l) := u_step s o in
                 let '(s'', l') := u_run s' ops' in (s'', l ++ l')
  end.
(** End of scope: all variables are destroyed. *)
Definition u_end (s : list uptr) : list ev := concat (map u_destroy s).

(** ** allocator::new_object and friends (impl/allocator.ipp) *)
(** allocate_object, lines 15-23. *)
Definition allocate_object (esz al n : Z) (res : option Z) : outcome Z * list ev :=
  mr_alloc (wrap64 (n * esz)) al res.
(** deallocate_object, lines 25-33 (memory_resource::deallocate ignores null). *)
Definition deallocate_object (esz al n p : Z) : list ev :=
  if p =? 0 then [] else [EFree p (wrap64 (n * esz)) al].
(** new_object, lines 35-51; [thr]: the constructor throws. *)
Definition new_object (esz al : Z) (res : option Z) (thr : bool) : outcome Z * list ev :=
  match allocate_object esz al 1 res with
  | (Ret p, l) => if thr then (Throw runtime_error, l) else (Ret p, l ++ [ECtor p esz])
  | r => r
  end.
(** delete_object, lines 53-67. *)
Definition delete_object (esz al p : Z) : list ev :=
  EDtor p esz :: deallocate_object esz al 1 p.
