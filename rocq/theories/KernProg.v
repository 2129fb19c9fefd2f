(** Programs that launch kernels on vector buffers.

    Sources (core/include/vecmem): those of BufProg.v for the host operations; for the kernels
    containers/impl/device_vector.ipp lines 63-83 (at), 196-214 (push_back) and 484-497 (size), and
    containers/data/vector_view.hpp lines 37-38 (the kernel takes views).  The kernel has the form of
    filterTransformKernel in tests/cuda/test_cuda_containers_kernels.cu lines 157-187.

    Simplifications: as in Kernel.v (elements of a trivial type, sequentially consistent memory; one
    step for the atomic addition, one for constructing the element); a load of the size, and a call of
    at with the read of the element, are one step each.  The host waits for a kernel before it goes on.
    What a thread computes from the element that it has read is any function [g] of its bytes, whose
    result is appended or, if there is none, dropped. *)
From Verif Require Import Base Copy Kernel BufProg.
From Coq Require Import ZArith List Bool.
Import ListNotations.
Local Open Scope Z_scope.

(** A thread: before it reads the size of the input, before it reads its element, in push_back,
    and after it has returned without an element to append. *)
Inductive fthr := FSize (t : nat) | FRead (t : nat) | FPush (k : kthr) | FEnd.

(** device_vector::size() *)
Definition dev_size (v : vview) (m : cmem) : option Z :=
  if v_sizep v =? 0 then Some (v_cap v) else option_map unle32 (get_bytes m (v_sizep v) 4).

Section Launch.
  Variables (esz : Z) (vin : vview) (osz : Z) (vout : vview) (g : list Z -> option (list Z)).

  (** One step of thread [i]. *)
  Definition f_step (s : cmem * list fthr) (i : nat) : outcome (cmem * list fthr) :=
    let '(m, thr) := s in
    match nth_error thr i with
    | Some (FSize t) =>
        match dev_size vin m with
        | Some n => Ret (m, upd thr i (if Z.of_nat t <? n then FRead t else FEnd))
        | None => UB
        end
    | Some (FRead t) =>
        match dev_size vin m with
        | Some n => assert (Z.of_nat t <? n)
            (match get_bytes m (v_ptr vin + Z.of_nat t * esz) (Z.to_nat esz) with
             | Some bs => Ret (m, upd thr i (match g bs with Some v => FPush (KCall v) | None => FEnd end))
             | None => UB
             end)
        | None => UB
        end
    | Some (FPush k) =>
        match k_step osz vout (m, [k]) 0 with
        | Ret (m', thr') => Ret (m', upd thr i (FPush (hd k thr')))
        | Throw e => Throw e
        | UB => UB
        end
    | Some FEnd | None => Ret s
    end.
  Fixpoint f_run (s : cmem * list fthr) (sched : list nat) : outcome (cmem * list fthr) :=
    match sched with
    | [] => Ret s
    | i :: sched' => let* s' := f_step s i in f_run s' sched'
    end.
End Launch.

(** [KLaunch i j g n sched]: [n] threads filter buffer [i] into buffer [j], scheduled by [sched].  The
    result has what push_back returned to every thread that called it. *)
Inductive kop := KHost (o : bop) | KLaunch (i j : nat) (g : list Z -> option (list Z)) (n : nat) (sched : list nat).
Inductive kres := RHost (r : bres) | RIdx (l : list (option Z)) | RStuck.

Definition f_finished (t : fthr) : bool := match t with FPush (KDone _ _) | FEnd => true | _ => false end.
Definition f_idx (t : fthr) : option Z := match t with FPush (KDone i _) => Some i | _ => None end.

Definition kstep (st : bst) (o : kop) : kres * bst :=
  match o with
  | KHost o => let p := bstep st o in (RHost (fst p), snd p)
  | KLaunch i j g n sched =>
      match get_buf st i, get_buf st j with
      | Some f, Some h =>
          match f_run (f_esz f) (f_view f) (f_esz h) (f_view h) g (b_m st, map FSize (seq 0 n)) sched with
          | Ret (m, thr) => (if forallb f_finished thr then RIdx (map f_idx thr) else RStuck, mkBst (b_w st) m (b_h st))
          | Throw e => (RHost (RExn e), st)
          | UB => (RHost RUB, st)
          end
      | _, _ => (RHost RUB, st)
      end
  end.
Fixpoint kruns (st : bst) (ops : list kop) : list kres * bst :=
  match ops with
  | [] => ([], st)
  | o :: ops' => let p := kstep st o in let q := kruns (snd p) ops' in (fst p :: fst q, snd q)
  end.

(** ** Specification

    The bytes of an element, if all of them have been written. *)
Definition all_known (l : list (option Z)) : option (list Z) :=
  fold_right (fun x r => match x, r with Some c, Some l => Some (c :: l) | _, _ => None end) (Some []) l.
Definition a_elem (a : abuf) (t : nat) : option (list Z) :=
  all_known (firstn (Z.to_nat (a_esz a)) (skipn (t * Z.to_nat (a_esz a)) (a_bytes a))).
(** What thread [t] appends. *)
Definition appended (a : abuf) (n : Z) (g : list Z -> option (list Z)) (t : nat) : option (list Z) :=
  if Z.of_nat t <? n then match a_elem a t with Some e => g e | None => None end else None.
Definition somes {A} (l : list (option A)) : list A := flat_map (fun o => match o with Some x => [x] | None => [] end) l.
Definition is_some {A} (o : option A) : bool := match o with Some _ => true | None => false end.
(** The element for which push_back returned [idx]. *)
Definition slot (p : list (Z * list Z)) (idx : Z) : list Z := match find (fun q => fst q =? idx) p with Some q => snd q | None => [] end.

Definition kjudge (l : list (option abuf)) (o : kop) (r : kres) : verdict :=
  match o with
  | KHost o => match r with RHost r => judge l o r | _ => Wrong end
  | KLaunch i j g nthr sched =>
      match alive l i, alive l j with
      | Some a, Some b =>
          match a_num a, a_size b with
          | Some n, Sized k =>
              let vals := map (appended a n g) (seq 0 nthr) in
              let outs := somes vals in
              let len := Z.of_nat (length outs) in
              if negb (Nat.eqb i j) && forallb (fun t => negb (Z.of_nat t <? n) || is_some (a_elem a t)) (seq 0 nthr) &&
                 forallb (fun v => Z.of_nat (length v) =? a_esz b) outs && (k + len <=? a_cap b) &&
                 forallb (fun t => Nat.leb 5 (count_occ Nat.eq_dec sched t)) (seq 0 nthr)
              then match r with
                   | RIdx idxs =>
                       if (if list_eq_dec bool_dec (map is_some idxs) (map is_some vals) then true else false) &&
                          forallb (fun s => existsb (Z.eqb (k + Z.of_nat s)) (somes idxs)) (seq 0 (length outs))
                       then let new := map (fun s => slot (combine (somes idxs) outs) (k + Z.of_nat s)) (seq 0 (length outs)) in
                            Good (upd l j (Some (mkA (a_esz b) (a_cap b) (Sized (k + len))
                              (firstn (Z.to_nat (k * a_esz b)) (a_bytes b) ++ map Some (concat new) ++ skipn (Z.to_nat ((k + len) * a_esz b)) (a_bytes b)))))
                       else Wrong
                   | _ => Wrong
                   end
              else Illegal
          | _, _ => Illegal
          end
      | _, _ => Illegal
      end
  end.
Fixpoint kjudge_all (l : list (option abuf)) (ops : list kop) (rs : list kres) : verdict :=
  match ops, rs with
  | [], [] => Good l
  | o :: ops', r :: rs' => match kjudge l o r with Good l' => kjudge_all l' ops' rs' | v => v end
  | _, _ => Wrong
  end.
