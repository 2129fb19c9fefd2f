(** Host programs with any number of vector buffers.

    Sources (core/include/vecmem): containers/data/vector_buffer.hpp lines 22-66,
    containers/impl/vector_buffer.ipp lines 18-41 (construction; moves and the destructor are those
    of the members), utils/impl/copy.ipp lines 28-63, 115-137 and 487-539 (setup, memset, get_size
    and copies, with the default copy type), memory/unique_ptr.hpp (release of the memory).

    A copy of an empty buffer leaves the size of its target (C42_refuted), and so does the specification.

    The functions are those of Placement.v and Copy.v; this file puts them together into programs.
    All buffers live in one memory.  Their memory resources are one [world]: the log has the calls
    of all of them, and the answer to a call may depend on the resource that is asked in any way. *)
From Verif Require Import Base Copy.
From Verif Require Placement.
From Coq Require Import ZArith List Bool.
Import ListNotations.
Local Open Scope Z_scope.

(** A data::vector_buffer: size of the elements, the view that it is, the memory that it owns. *)
Record buf := mkBuf { f_esz : Z; f_view : vview; f_block : option block }.
(** The program state; [None]: a variable without a usable buffer (its construction failed, or it
    was destroyed or moved from). *)
Record bst := mkBst { b_w : world; b_m : cmem; b_h : list (option buf) }.

(** [ONew esz eal cap resizable garbage]: a new variable, whose memory holds [garbage] at first.
    [OMove i j]: variable [j] is assigned std::move of variable [i].  [OPut], [OGet]: one byte of the
    elements is written or read; [OSetSize]: the size is written, as device code does.  [OCopy i j]:
    from [i] to [j]. *)
Inductive bop :=
| ONew (esz eal cap : Z) (resizable : bool) (garbage : Z -> Z)
| ODestroy (i : nat)
| OMove (i j : nat)
| OSetup (i : nat)
| OMemset (i : nat) (value : Z)
| OCopy (i j : nat)
| OPut (i : nat) (k value : Z)
| OGet (i : nat) (k : Z)
| OSetSize (i : nat) (n : Z)
| OSize (i : nat).
Inductive bres := RDone | RByte (v : Z) | RNum (n : Z) | RCopied (c : bool) | RExn (e : exn) | RUB.

(** The bytes of a block can be accessed, or cannot be accessed any more. *)
Definition gain (b : block) (garbage : Z -> Z) (m : cmem) : cmem :=
  mkM (fun x => if (bptr b <=? x) && (x <? bptr b + bsize b) then Some (garbage x) else m_byte m x) (m_dev m) (m_strict m).
Definition lose (b : block) (m : cmem) : cmem :=
  mkM (fun x => if (bptr b <=? x) && (x <? bptr b + bsize b) then None else m_byte m x) (m_dev m) (m_strict m).

(** The destructor of the owning pointer. *)
Definition release (o : option block) (st : bst) : bst :=
  match o with
  | None => st
  | Some b => mkBst (Placement.free_bytes (b_w st) b) (lose b (b_m st)) (b_h st)
  end.
Definition with_h (st : bst) (h : list (option buf)) : bst := mkBst (b_w st) (b_m st) h.
(** The buffer of a variable. *)
Definition get_buf (st : bst) (i : nat) : option buf := match nth_error (b_h st) i with Some (Some f) => Some f | _ => None end.
(** A call of a function of vecmem::copy. *)
Definition call {A} (st : bst) (r : cm A) (f : A -> bres) : bres * bst :=
  (match fst r with Ret a => f a | Throw e => RExn e | UB => RUB end, mkBst (b_w st) (snd r) (b_h st)).

Definition bstep (st : bst) (o : bop) : bres * bst :=
  match o with
  | ONew esz eal cap rs g =>
      match Placement.vector_buffer esz eal cap rs (b_w st) with
      | (Ret (v, ob), w) =>
          (RDone, mkBst w (match ob with Some b => gain b g (b_m st) | None => b_m st end)
                    (b_h st ++ [Some (mkBuf esz (mkV (Placement.v_cap v) (Placement.v_size v) (Placement.v_ptr v)) ob)]))
      | (Throw e, w) => (RExn e, mkBst w (b_m st) (b_h st ++ [None]))
      | (UB, w) => (RUB, mkBst w (b_m st) (b_h st ++ [None]))
      end
  | ODestroy i =>
      match get_buf st i with
      | Some f => (RDone, with_h (release (f_block f) st) (upd (b_h st) i None))
      | None => (RUB, st)
      end
  | OMove i j =>
      match get_buf st i with
      | Some f =>
          let st1 := match get_buf st j with Some g => release (f_block g) st | None => st end in
          (RDone, with_h st1 (upd (upd (b_h st) j (Some f)) i None))
      | None => (RUB, st)
      end
  | OSetup i => match get_buf st i with Some f => call st (setup_vector (f_view f) (b_m st)) (fun _ => RDone) | None => (RUB, st) end
  | OMemset i value =>
      match get_buf st i with Some f => call st (memset_vector (f_esz f) (f_view f) value (b_m st)) (fun _ => RDone) | None => (RUB, st) end
  | OCopy i j =>
      match get_buf st i, get_buf st j with
      | Some f, Some g => call st (copy_vector (f_esz f) type_unknown (f_view f) (f_view g) (b_m st)) RCopied
      | _, _ => (RUB, st)
      end
  | OPut i k value =>
      match get_buf st i with Some f => call st (do_copy_in type_unknown [value] (v_ptr (f_view f) + k) (b_m st)) (fun _ => RDone) | None => (RUB, st) end
  | OGet i k =>
      match get_buf st i with
      | Some f => call st (do_copy_out type_unknown 1 (v_ptr (f_view f) + k) (b_m st)) (fun bs => RByte (hd 0 bs))
      | None => (RUB, st)
      end
  | OSetSize i n =>
      match get_buf st i with Some f => call st (do_copy_in type_unknown (le32 n) (v_sizep (f_view f)) (b_m st)) (fun _ => RDone) | None => (RUB, st) end
  | OSize i => match get_buf st i with Some f => call st (get_size (f_view f) (b_m st)) RNum | None => (RUB, st) end
  end.

Fixpoint bruns (st : bst) (ops : list bop) : list bres * bst :=
  match ops with
  | [] => ([], st)
  | o :: ops' => let '(r, st1) := bstep st o in let '(rs, st2) := bruns st1 ops' in (r :: rs, st2)
  end.
(** At first there are no buffers, and no memory can be accessed.  The sides of the addresses do not
    matter for the default copy type. *)
Definition bst0 (orc : nat -> option Z) : bst := mkBst (mkWorld [] orc) (mkM (fun _ => None) (fun _ => false) false) [].

(** ** Specification: independent bounded lists

    A buffer is a number of bytes, of which some may not have been written, and a size. *)
Inductive asize := Fixed | Unset | Sized (n : Z).
Record abuf := mkA { a_esz : Z; a_cap : Z; a_size : asize; a_bytes : list (option Z) }.
Definition a_num (a : abuf) : option Z := match a_size a with Fixed => Some (a_cap a) | Unset => None | Sized n => Some n end.
Definition resized (s : asize) (n : Z) : asize := match s with Fixed => Fixed | _ => Sized n end.

(** The result of an operation is judged: it is right, and the buffers are now these; or the call
    was not legal; or it is wrong. *)
Inductive verdict := Good (l : list (option abuf)) | Illegal | Wrong.
Definition alive (l : list (option abuf)) (i : nat) : option abuf := match nth_error l i with Some (Some a) => Some a | _ => None end.
Definition expect (r r' : bres) (l : list (option abuf)) : verdict :=
  match r, r' with
  | RDone, RDone => Good l
  | RByte v, RByte v' | RNum v, RNum v' => if v =? v' then Good l else Wrong
  | RCopied c, RCopied c' => if Bool.eqb c c' then Good l else Wrong
  | RExn length_error, RExn length_error => Good l
  | _, _ => Wrong
  end.

Definition judge (l : list (option abuf)) (o : bop) (r : bres) : verdict :=
  match o with
  | ONew esz eal cap rs _ =>
      if (0 <? esz) && (0 <? eal) && (2 ^ Z.log2 eal =? eal) && (0 <=? cap) && (cap <? 2 ^ 32) &&
         (4 + cap * esz + 2 * Z.max 4 eal <? 2 ^ 64)
      then match r with
           | RDone => Good (l ++ [Some (mkA esz cap (if rs && negb (cap =? 0) then Unset else Fixed) (repeat None (Z.to_nat (cap * esz))))])
           | RExn bad_alloc => if cap =? 0 then Wrong else Good (l ++ [None])
           | _ => Wrong
           end
      else Illegal
  | ODestroy i => match alive l i with Some _ => expect r RDone (upd l i None) | None => Illegal end
  | OMove i j =>
      match alive l i, nth_error l j with
      | Some a, Some _ => if Nat.eqb i j then Illegal else expect r RDone (upd (upd l j (Some a)) i None)
      | _, _ => Illegal
      end
  | OSetup i =>
      match alive l i with
      | Some a => expect r RDone (upd l i (Some (mkA (a_esz a) (a_cap a) (resized (a_size a) 0) (a_bytes a))))
      | None => Illegal
      end
  | OMemset i value =>
      match alive l i with
      | Some a => expect r RDone (upd l i (Some (mkA (a_esz a) (a_cap a) (a_size a) (repeat (Some (value mod 256)) (length (a_bytes a))))))
      | None => Illegal
      end
  | OCopy i j =>
      match alive l i, alive l j with
      | Some a, Some b =>
          match a_num a with
          | Some n =>
              if Nat.eqb i j || negb (a_esz a =? a_esz b) then Illegal
              else if n =? 0 then expect r (RCopied false) l
              else if a_cap b <? n then expect r (RExn length_error) l
              else let k := Z.to_nat (n * a_esz a) in
                   expect r (RCopied true)
                     (upd l j (Some (mkA (a_esz b) (a_cap b) (resized (a_size b) n) (firstn k (a_bytes a) ++ skipn k (a_bytes b)))))
          | None => Illegal
          end
      | _, _ => Illegal
      end
  | OPut i k value =>
      match alive l i with
      | Some a => if (0 <=? k) && (k <? a_cap a * a_esz a)
                  then expect r RDone (upd l i (Some (mkA (a_esz a) (a_cap a) (a_size a) (upd (a_bytes a) (Z.to_nat k) (Some value)))))
                  else Illegal
      | None => Illegal
      end
  | OGet i k =>
      match alive l i with
      | Some a => if 0 <=? k then match nth_error (a_bytes a) (Z.to_nat k) with Some (Some v) => expect r (RByte v) l | _ => Illegal end else Illegal
      | None => Illegal
      end
  | OSetSize i n =>
      match alive l i with
      | Some a => match a_size a with
                  | Fixed => Illegal
                  | _ => if (0 <=? n) && (n <=? a_cap a)
                         then expect r RDone (upd l i (Some (mkA (a_esz a) (a_cap a) (Sized n) (a_bytes a)))) else Illegal
                  end
      | None => Illegal
      end
  | OSize i => match alive l i with Some a => match a_num a with Some n => expect r (RNum n) l | None => Illegal end | None => Illegal end
  end.

Fixpoint judge_all (l : list (option abuf)) (ops : list bop) (rs : list bres) : verdict :=
  match ops, rs with
  | [], [] => Good l
  | o :: ops', r :: rs' => match judge l o r with Good l' => judge_all l' ops' rs' | v => v end
  | _, _ => Wrong
  end.
