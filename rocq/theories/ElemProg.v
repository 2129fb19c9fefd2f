(** Programs that launch kernels which read and write elements of vector buffers.

    Sources (core/include/vecmem): those of KernProg.v for the other operations; for these kernels
    containers/impl/device_vector.ipp lines 63-83 (at) and 484-497 (size), and
    containers/impl/vector_view.ipp lines 74-78 (size).  An example is linearTransformKernel in
    tests/cuda/test_cuda_containers_kernels.cu lines 24-49.

    Simplifications: elements of a trivial type, which are read and written byte by byte; sequentially
    consistent memory; a load of the size is one step, and so is a call of at with the access to a byte
    of the element.  The host waits for a kernel before it goes on.  A thread is a tree: what it does next
    may depend in any way on what it has read so far. *)
From Verif Require Import Races.
From Verif Require Import Base Copy BufProg KernProg.
From Coq Require Import ZArith List Bool.
Import ListNotations.
Local Open Scope Z_scope.

(** The rest of a thread.  [PSize i]: the size of buffer [i]; [PGet i k], [PPut i k v]: byte [k] of the
    elements of buffer [i], which belongs to the element with index [k] divided by the size of an element. *)
Inductive kp :=
| PEnd
| PSize (i : nat) (next : Z -> kp)
| PGet (i : nat) (k : Z) (next : Z -> kp)
| PPut (i : nat) (k v : Z) (next : kp).

(** A read and a write of a whole element. *)
Fixpoint get_elem (i : nat) (k : Z) (n : nat) (next : list Z -> kp) : kp :=
  match n with O => next [] | S n' => PGet i k (fun c => get_elem i (k + 1) n' (fun bs => next (c :: bs))) end.
Fixpoint put_elem (i : nat) (k : Z) (bs : list Z) (next : kp) : kp :=
  match bs with [] => next | c :: bs' => PPut i k c (put_elem i (k + 1) bs' next) end.
(** Thread [t] of a kernel like linearTransformKernel (tests/cuda/test_cuda_containers_kernels.cu 24-49):
    it writes a function of its element of buffer [i], of [esz] bytes, to its element of buffer [j], of [osz] bytes. *)
Definition map_thread (i : nat) (esz : Z) (j : nat) (osz : Z) (g : list Z -> list Z) (t : nat) : kp :=
  PSize i (fun n => if Z.of_nat t <? n
                    then get_elem i (Z.of_nat t * esz) (Z.to_nat esz) (fun bs => put_elem j (Z.of_nat t * osz) (g bs) PEnd)
                    else PEnd).

Section Launch.
  Variable h : list (option buf).
  Definition buf_of (i : nat) : option buf := match nth_error h i with Some (Some f) => Some f | _ => None end.

  (** One step of thread [t]. *)
  Definition e_step (s : cmem * list kp) (t : nat) : outcome (cmem * list kp) :=
    let '(m, thr) := s in
    let sized i (go : buf -> Z -> outcome (cmem * list kp)) :=
      match buf_of i with
      | Some f => match dev_size (f_view f) m with Some n => go f n | None => UB end
      | None => UB
      end in
    match nth_error thr t with
    | Some (PSize i next) => sized i (fun f n => Ret (m, upd thr t (next n)))
    | Some (PGet i k next) => sized i (fun f n =>
        assert ((0 <=? k) && (k / f_esz f <? n))
          (match m_byte m (v_ptr (f_view f) + k) with
           | Some c => Ret (m, upd thr t (next c))
           | None => UB
           end))
    | Some (PPut i k v next) => sized i (fun f n =>
        assert ((0 <=? k) && (k / f_esz f <? n))
          (match m_byte m (v_ptr (f_view f) + k) with
           | Some _ => Ret (put_bytes m (v_ptr (f_view f) + k) [v], upd thr t next)
           | None => UB
           end))
    | Some PEnd | None => Ret s
    end.
  Fixpoint e_run (s : cmem * list kp) (sched : list nat) : outcome (cmem * list kp) :=
    match sched with
    | [] => Ret s
    | t :: sched' => let* s' := e_step s t in e_run s' sched'
    end.

  (** The memory accesses of the next step of a thread (vector_view::size is a plain read,
      device_vector::size an atomic one). *)
  Definition load_size (f : buf) (k : how) : list access := if v_sizep (f_view f) =? 0 then [] else [mkAccess (v_sizep (f_view f)) 4 k].
  Definition p_access (p : kp) : list access :=
    match p with
    | PEnd => []
    | PSize i _ => match buf_of i with Some f => load_size f plain_read | None => [] end
    | PGet i k _ => match buf_of i with Some f => load_size f atomic_load ++ [mkAccess (v_ptr (f_view f) + k) 1 plain_read] | None => [] end
    | PPut i k _ _ => match buf_of i with Some f => load_size f atomic_load ++ [mkAccess (v_ptr (f_view f) + k) 1 plain_write] | None => [] end
    end.
End Launch.

(** [ELaunch ps sched]: one thread for every element of [ps], scheduled by [sched]. *)
Inductive eop := EOp (o : kop) | ELaunch (ps : list kp) (sched : list nat).

Definition estep (st : bst) (o : eop) : kres * bst :=
  match o with
  | EOp o => kstep st o
  | ELaunch ps sched =>
      match e_run (b_h st) (b_m st, ps) sched with
      | Ret (m, thr) => (if forallb (fun p => match p with PEnd => true | _ => false end) thr then RHost RDone else RStuck, mkBst (b_w st) m (b_h st))
      | Throw e => (RHost (RExn e), st)
      | UB => (RHost RUB, st)
      end
  end.
Fixpoint eruns (st : bst) (ops : list eop) : list kres * bst :=
  match ops with
  | [] => ([], st)
  | o :: ops' => let p := estep st o in let q := eruns (snd p) ops' in (fst p :: fst q, snd q)
  end.

(** ** Specification: the threads one after another

    The run of one thread on the lists: the lists at its end, the bytes that it reads and writes, and the
    number of its steps.  [None]: it accesses an element that does not exist, or reads a byte that has
    not been written. *)
Record erun := mkE { e_end : list (option abuf); e_reads : list (nat * Z); e_writes : list (nat * Z); e_steps : nat }.
Definition also (r w : list (nat * Z)) (o : option erun) : option erun :=
  match o with Some e => Some (mkE (e_end e) (r ++ e_reads e) (w ++ e_writes e) (S (e_steps e))) | None => None end.
Definition a_put (a : abuf) (k v : Z) : abuf := mkA (a_esz a) (a_cap a) (a_size a) (upd (a_bytes a) (Z.to_nat k) (Some v)).

Fixpoint srun (l : list (option abuf)) (p : kp) : option erun :=
  match p with
  | PEnd => Some (mkE l [] [] 0)
  | PSize i next =>
      match alive l i with
      | Some a => match a_num a with Some n => also [] [] (srun l (next n)) | None => None end
      | None => None
      end
  | PGet i k next =>
      match alive l i with
      | Some a =>
          match a_num a with
          | Some n =>
              if (0 <=? k) && (k <? n * a_esz a)
              then match nth_error (a_bytes a) (Z.to_nat k) with Some (Some c) => also [(i, k)] [] (srun l (next c)) | _ => None end
              else None
          | None => None
          end
      | None => None
      end
  | PPut i k v next =>
      match alive l i with
      | Some a =>
          match a_num a with
          | Some n => if (0 <=? k) && (k <? n * a_esz a) then also [] [(i, k)] (srun (upd l i (Some (a_put a k v))) next) else None
          | None => None
          end
      | None => None
      end
  end.
Fixpoint sruns (l : list (option abuf)) (ps : list kp) : option (list erun) :=
  match ps with
  | [] => Some []
  | p :: ps' =>
      match srun l p with
      | Some e => match sruns (e_end e) ps' with Some es => Some (e :: es) | None => None end
      | None => None
      end
  end.

(** No thread writes a byte that another one reads or writes. *)
Definition loc_eqb (x y : nat * Z) : bool := Nat.eqb (fst x) (fst y) && (snd x =? snd y).
Definition no_run : erun := mkE [] [] [] 0.
Definition independent (es : list erun) : bool :=
  forallb (fun t => forallb (fun u => Nat.eqb t u ||
      forallb (fun x => negb (existsb (loc_eqb x) (e_reads (nth u es no_run) ++ e_writes (nth u es no_run)))) (e_writes (nth t es no_run)))
    (seq 0 (length es))) (seq 0 (length es)).

Definition ejudge (l : list (option abuf)) (o : eop) (r : kres) : verdict :=
  match o with
  | EOp o => kjudge l o r
  | ELaunch ps sched =>
      match sruns l ps with
      | Some es =>
          if independent es && forallb (fun t => Nat.leb (e_steps (nth t es no_run)) (count_occ Nat.eq_dec sched t)) (seq 0 (length es))
          then match r with RHost RDone => Good (last (map e_end es) l) | _ => Wrong end
          else Illegal
      | None => Illegal
      end
  end.
Fixpoint ejudge_all (l : list (option abuf)) (ops : list eop) (rs : list kres) : verdict :=
  match ops, rs with
  | [], [] => Good l
  | o :: ops', r :: rs' => match ejudge l o r with Good l' => ejudge_all l' ops' rs' | v => v end
  | _, _ => Wrong
  end.
