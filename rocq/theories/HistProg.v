(** Programs that launch kernels which add to elements of a vector buffer with atomic operations.

    Sources (core/include/vecmem): those of ElemProg.v for the other operations; for these kernels
    containers/impl/device_vector.ipp lines 63-83 (at) and 484-497 (size), containers/impl/vector_view.ipp
    lines 74-78 (size), and fetch_add: memory/impl/posix_device_atomic_ref.ipp lines 111-117 and
    memory/impl/cuda_device_atomic_ref.ipp lines 113-118.  An example of atomic operations on the
    elements of a vector is atomicTransformKernel in tests/cuda/test_cuda_containers_kernels.cu lines 76-104.

    Simplifications: as in ElemProg.v, but an element is read in one step; the elements that are added to
    are integers of four bytes (little endian, wrapping); a call of at and the fetch_add on the element are one step; a
    thread does not use what fetch_add returns.  What a thread adds, and where, is any function [g] of the element
    that it has read. *)
From Verif Require Import Races.
From Verif Require Import Base Copy BufProg KernProg ElemProg.
From Coq Require Import ZArith List Bool.
Import ListNotations.
Local Open Scope Z_scope.

(** A thread: before it reads the size of the input, before it reads its element, and with the additions
    (index, value) that it has still to make. *)
Inductive hthr := HSize (t : nat) | HRead (t : nat) | HAdd (l : list (Z * Z)).

Section Launch.
  Variables (esz : Z) (vin vout : vview) (g : list Z -> list (Z * Z)).

  (** One step of thread [i]. *)
  Definition h_step (s : cmem * list hthr) (i : nat) : outcome (cmem * list hthr) :=
    let '(m, thr) := s in
    match nth_error thr i with
    | Some (HSize t) =>
        match dev_size vin m with
        | Some n => Ret (m, upd thr i (if Z.of_nat t <? n then HRead t else HAdd []))
        | None => UB
        end
    | Some (HRead t) =>
        match dev_size vin m with
        | Some n => assert (Z.of_nat t <? n)
            (match get_bytes m (v_ptr vin + Z.of_nat t * esz) (Z.to_nat esz) with
             | Some bs => Ret (m, upd thr i (HAdd (g bs)))
             | None => UB
             end)
        | None => UB
        end
    | Some (HAdd ((idx, v) :: rest)) =>
        match dev_size vout m with
        | Some n => assert ((0 <=? idx) && (idx <? n))
            (match get_bytes m (v_ptr vout + idx * 4) 4 with
             | Some bs => Ret (put_bytes m (v_ptr vout + idx * 4) (le32 ((unle32 bs + v) mod 2 ^ 32)), upd thr i (HAdd rest))
             | None => UB
             end)
        | None => UB
        end
    | Some (HAdd []) | None => Ret s
    end.
  Fixpoint h_run (s : cmem * list hthr) (sched : list nat) : outcome (cmem * list hthr) :=
    match sched with
    | [] => Ret s
    | i :: sched' => let* s' := h_step s i in h_run s' sched'
    end.

  (** The memory accesses of the next step of a thread. *)
  Definition size_access (v : vview) (k : how) : list access := if v_sizep v =? 0 then [] else [mkAccess (v_sizep v) 4 k].
  Definition h_access (t : hthr) : list access :=
    match t with
    | HSize _ => size_access vin plain_read
    | HRead t => size_access vin atomic_load ++ [mkAccess (v_ptr vin + Z.of_nat t * esz) esz plain_read]
    | HAdd ((idx, _) :: _) => size_access vout atomic_load ++ [mkAccess (v_ptr vout + idx * 4) 4 atomic_add]
    | HAdd [] => []
    end.
End Launch.

(** [HLaunch i j g n sched]: [n] threads read buffer [i] and add to elements of buffer [j]. *)
Inductive hop := HOp (o : eop) | HLaunch (i j : nat) (g : list Z -> list (Z * Z)) (n : nat) (sched : list nat).

Definition hstep (st : bst) (o : hop) : kres * bst :=
  match o with
  | HOp o => estep st o
  | HLaunch i j g n sched =>
      match get_buf st i, get_buf st j with
      | Some f, Some h =>
          match h_run (f_esz f) (f_view f) (f_view h) g (b_m st, map HSize (seq 0 n)) sched with
          | Ret (m, thr) => (if forallb (fun t => match t with HAdd [] => true | _ => false end) thr then RHost RDone else RStuck, mkBst (b_w st) m (b_h st))
          | Throw e => (RHost (RExn e), st)
          | UB => (RHost RUB, st)
          end
      | _, _ => (RHost RUB, st)
      end
  end.
Fixpoint hruns (st : bst) (ops : list hop) : list kres * bst :=
  match ops with
  | [] => ([], st)
  | o :: ops' => let p := hstep st o in let q := hruns (snd p) ops' in (fst p :: fst q, snd q)
  end.

(** ** Specification

    The bytes of the word with index [idx]; an addition to a word. *)
Definition word_at (l : list (option Z)) (idx : Z) : option (list Z) := all_known (firstn 4 (skipn (Z.to_nat idx * 4) l)).
Definition add_word (l : list (option Z)) (p : Z * Z) : list (option Z) :=
  match word_at l (fst p) with
  | Some bs => firstn (Z.to_nat (fst p) * 4) l ++ map Some (le32 ((unle32 bs + snd p) mod 2 ^ 32)) ++ skipn (Z.to_nat (fst p) * 4 + 4) l
  | None => l
  end.
(** What thread [t] adds. *)
Definition adds_of (a : abuf) (n : Z) (g : list Z -> list (Z * Z)) (t : nat) : list (Z * Z) :=
  if Z.of_nat t <? n then match a_elem a t with Some e => g e | None => [] end else [].

Definition hjudge (l : list (option abuf)) (o : hop) (r : kres) : verdict :=
  match o with
  | HOp o => ejudge l o r
  | HLaunch i j g nthr sched =>
      match alive l i, alive l j with
      | Some a, Some b =>
          match a_num a, a_num b with
          | Some n, Some nb =>
              let adds := flat_map (adds_of a n g) (seq 0 nthr) in
              if negb (Nat.eqb i j) && (a_esz b =? 4) && forallb (fun t => negb (Z.of_nat t <? n) || is_some (a_elem a t)) (seq 0 nthr) &&
                 forallb (fun p => (0 <=? fst p) && (fst p <? nb) && is_some (word_at (a_bytes b) (fst p))) adds &&
                 forallb (fun t => Nat.leb (2 + length (adds_of a n g t)) (count_occ Nat.eq_dec sched t)) (seq 0 nthr)
              then match r with
                   | RHost RDone => Good (upd l j (Some (mkA (a_esz b) (a_cap b) (a_size b) (fold_left add_word adds (a_bytes b)))))
                   | _ => Wrong
                   end
              else Illegal
          | _, _ => Illegal
          end
      | _, _ => Illegal
      end
  end.
Fixpoint hjudge_all (l : list (option abuf)) (ops : list hop) (rs : list kres) : verdict :=
  match ops, rs with
  | [], [] => Good l
  | o :: ops', r :: rs' => match hjudge l o r with Good l' => hjudge_all l' ops' rs' | v => v end
  | _, _ => Wrong
  end.
