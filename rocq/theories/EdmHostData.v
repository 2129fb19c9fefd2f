(** edm::data: the views that get_data makes of an SoA container in host memory.

    Sources (core/include/vecmem/edm): impl/host.ipp lines 165-229 (get_data and its helper;
    the variant for const containers, lines 231-300, only differs in the types), data.hpp
    lines 36-90, impl/data.ipp lines 15-63, details/data_traits.hpp lines 22-78, view.hpp
    lines 72-86 and 168-189 (the members have no initialisers), impl/view.ipp lines 19-28
    (constructor), 30-78 (conversion and assignment).

    Simplifications: a std::vector is given by [size()] and [data()]; adding const to the
    element types does not change the representation; the objects of a tuple are made and
    destroyed in the order of the variables; the description of a jagged vector is read
    when the device container is made, and not at each access; a member without a value
    is [None]. *)
From Verif Require EdmHost.
From Verif Require Export Base Copy CopyHost UniquePtr Views EdmDevice.

(** Where the variables of an edm::host container are: the address of a scalar, the size and
    address of a vector, and those of the inner vectors of a jagged vector. *)
Inductive eplace := PScalar (p : Z) | PVec (n : nat) (p : Z) | PJag (rows : list (Z * Z)).

(** What [size()] of the container looks at (model: EdmHost). *)
Definition place_var (x : eplace) : EdmHost.hvar unit :=
  match x with
  | PScalar _ => EdmHost.HScalar [tt]
  | PVec n _ => EdmHost.HVec tt (repeat tt n)
  | PJag rows => EdmHost.HJag (map (fun _ => []) rows)
  end.
(** schema_traits.hpp lines 63-79: also true for jagged vectors. *)
Definition is_vector (x : eplace) : bool := match x with PScalar _ => false | _ => true end.

(** view_traits.hpp lines 32-56. *)
Inductive dview := DScalar (p : Z) | DVec (v : Copy.vview) | DJag (v : jview).

(** data_traits.hpp lines 22-33: a jagged_vector_data for every jagged vector; [none] where
    the tuple has a std::monostate. *)
Definition own : Type := (jview * uptr)%type.
Definition own_none : own := (mkJ 0 0 0, u_null).

(** edm::data with its base class edm::view (capacity, size, variables; the views of the
    payload and layout are not used for host containers). *)
Record edata := mkData { d_cap : option Z; d_msize : option mview; d_views : list (option dview); d_own : list own }.

(** data() = default: jagged_vector_data has a default constructor with values
    (jagged_vector_data.ipp lines 39-41), the view has not. *)
Definition data_default (ps : list eplace) : edata :=
  mkData None None (map (fun _ => None) ps) (map (fun _ => own_none) ps).

(** data_alloc::make for all variables, data_traits.hpp lines 40-54 and data.ipp lines
    19-21.  [ans]: the answers of the memory resource; [k]: how many were given before.
    When an allocation throws, the objects made before are destroyed. *)
Fixpoint alloc_own (n : nat) (ps : list eplace) (ans : nat -> option Z) (k : nat) : outcome (list own) * list ev * nat :=
  match ps with
  | [] => (Ret [], [], k)
  | PJag _ :: ps' =>
      match jdata_new n (ans k) with
      | (Ret o, l) =>
          match alloc_own n ps' ans (k + length l) with
          | (Ret os, l', k') => (Ret (o :: os), l ++ l', k')
          | (Throw e, l', k') => (Throw e, l ++ l' ++ jdata_destroy o, k')
          | (UB, l', k') => (UB, l ++ l', k')
          end
      | (Throw e, l) => (Throw e, l, (k + length l)%nat)
      | (UB, l) => (UB, l, (k + length l)%nat)
      end
  | _ :: ps' =>
      match alloc_own n ps' ans k with
      | (Ret os, l', k') => (Ret (own_none :: os), l', k')
      | r => r
      end
  end.

(** data(size, resource), data.ipp lines 15-26, with data_view_assign: view(size) sets the
    size to an empty view, and the variables are value-initialised. *)
Definition view0 (x : eplace) (o : own) : option dview :=
  Some (match x with PScalar _ => DScalar 0 | PVec _ _ => DVec (Copy.mkV 0 0 0) | PJag _ => DJag (fst o) end).
Fixpoint map2 {A B C} (f : A -> B -> C) (l : list A) (l' : list B) : list C :=
  match l, l' with a :: r, b :: r' => f a b :: map2 f r r' | _, _ => [] end.
Definition data_new (size : Z) (ps : list eplace) (ans : nat -> option Z) : outcome edata * list ev * nat :=
  match alloc_own (Z.to_nat size) ps ans 0 with
  | (Ret os, l, k) => (Ret (mkData (Some size) (Some (mkMem 0 0)) (map2 view0 ps os) os), l, k)
  | (Throw e, l, k) => (Throw e, l, k)
  | (UB, l, k) => (UB, l, k)
  end.

(** get_data_impl, host.ipp lines 173-203: the new views and objects of the variables.  The
    move assignment of a jagged_vector_data frees the memory that it held.  When an
    allocation throws, the result object is destroyed. *)
Fixpoint fill (ps : list eplace) (os : list own) (ans : nat -> option Z) (k : nat) (m : cmem)
  : outcome (list (dview * own)) * list ev * cmem :=
  match ps, os with
  | x :: ps', o :: os' =>
      let next d o' l k' m1 :=
        match fill ps' os' ans k' m1 with
        | (Ret r, l', m2) => (Ret ((d, o') :: r), l ++ l', m2)
        | (Throw e, l', m2) => (Throw e, l ++ l' ++ jdata_destroy o', m2)
        | (UB, l', m2) => (UB, l ++ l', m2)
        end in
      match x with
      | PScalar p => next (DScalar p) o [] k m
      | PVec n p => next (DVec (vector_data (Z.of_nat n, p))) o [] k m
      | PJag rows =>
          match jagged_get_data rows (ans k) m with
          | (Ret o', l, m1) => next (DJag (fst o')) o' (l ++ jdata_destroy o) (k + length l)%nat m1
          | (Throw e, l, m1) => (Throw e, l ++ flat_map jdata_destroy (o :: os'), m1)
          | (UB, l, m1) => (UB, l, m1)
          end
      end
  | _, _ => (Ret [], [], m)
  end.

(** get_data, host.ipp lines 205-229: the size is cast to [unsigned int]. *)
Definition edm_get_data (ps : list eplace) (ans : nat -> option Z) (m : cmem) : outcome edata * list ev * cmem :=
  let start :=
    if existsb is_vector ps then
      match EdmHost.h_size (map place_var ps) with
      | Ret n => data_new (n mod 2 ^ 32) ps ans
      | Throw e => (Throw e, [], O)
      | UB => (UB, [], O)
      end
    else (Ret (data_default ps), [], O) in
  match start with
  | (Ret d, l, k) =>
      match fill ps (d_own d) ans k m with
      | (Ret r, l', m') => (Ret (mkData (d_cap d) (d_msize d) (map (fun x => Some (fst x)) r) (map snd r)), l ++ l', m')
      | (Throw e, l', m') => (Throw e, l ++ l', m')
      | (UB, l', m') => (UB, l ++ l', m')
      end
  | (Throw e, l, _) => (Throw e, l, m)
  | (UB, l, _) => (UB, l, m)
  end.

(** The destructor of edm::data. *)
Definition edata_destroy (d : edata) : list ev := flat_map jdata_destroy (d_own d).

(** Conversion and assignment between views that differ in constness, view.ipp lines 30-78:
    member by member. *)
Definition edata_convert (d : edata) : edata := mkData (d_cap d) (d_msize d) (d_views d) [].

(** What edm::device finds behind the views (jagged_device_vector reads the description). *)
Fixpoint read_rows (v : jview) (i : nat) (n : nat) (m : cmem) : outcome (list Placement.vview) :=
  match n with
  | O => Ret []
  | S n' => let* y := jdv_at v (Z.of_nat i) m in
            let* r := read_rows v (S i) n' m in
            Ret (mkView (Copy.v_cap y) (Copy.v_sizep y) (Copy.v_ptr y) :: r)
  end.
Definition seen (m : cmem) (x : option dview) : outcome eview :=
  match x with
  | None => UB
  | Some (DScalar p) => Ret (EScalar p)
  | Some (DVec v) => Ret (EVector (mkView (Copy.v_cap v) (Copy.v_sizep v) (Copy.v_ptr v)))
  | Some (DJag v) => let* r := read_rows v 0 (Z.to_nat (j_size v)) m in Ret (EJagged (j_size v) (j_ptr v) (j_host v) r)
  end.
Fixpoint seen_all (m : cmem) (xs : list (option dview)) : outcome (list eview) :=
  match xs with
  | [] => Ret []
  | x :: xs' => let* y := seen m x in let* ys := seen_all m xs' in Ret (y :: ys)
  end.
(** The constructor of edm::device, device.ipp lines 20-31: using the capacity or the size
    when they have no value is undefined. *)
Definition device_of (vars : list var) (d : edata) (m : cmem) : outcome edev :=
  match d_cap d, d_msize d with
  | Some cap, Some size => let* xs := seen_all m (d_views d) in dev_make vars cap size xs
  | _, _ => UB
  end.
