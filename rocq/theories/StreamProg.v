(** Programs with vector buffers whose copy object is asynchronous.

    Sources: core/include/vecmem/utils/impl/copy.ipp lines 28-63, 83-95, 115-137 and 487-539 (setup, memset,
    operator(), get_size and copy_view_impl), core/src/utils/copy.cpp (the events of vecmem::copy, which do
    nothing), cuda/src/utils/cuda/async_copy.cpp (do_copy and do_memset put an operation on the stream; create_event
    records an event; wait synchronizes with it); BufProg.v for buffers and programs.

    Simplifications: one stream; the stream performs an operation in one step, in the order of issue, at any time;
    get_size and the copy of the size in copy_view_impl, which wait for an operation that they have issued last, are
    the wait for the whole stream followed by the copy; the other accesses of the host ([OPut], [OGet], [OSetSize]) go
    directly to memory.  Async.v has the functions step by step, and C98 their correctness one by one. *)
From Verif Require Import Base Copy BufProg.
From Coq Require Import ZArith List Bool.
Import ListNotations.
Local Open Scope Z_scope.

(** An operation on the stream: a memset, a copy. *)
Inductive act := QSet (n dst value : Z) | QCopy (n src dst : Z).
Definition act_run (a : act) (m : cmem) : cm unit :=
  match a with QSet n dst value => do_memset n dst value m | QCopy n src dst => do_copy type_unknown n src dst m end.
(** Operations with the number of the call that has issued them.  A failure on the stream counts as undefined. *)
Fixpoint q_run (q : list (nat * act)) (m : cmem) : option cmem :=
  match q with
  | [] => Some m
  | (_, a) :: q' => match act_run a m with (Ret _, m') => q_run q' m' | _ => None end
  end.

(** The state of a program: buffers and memory, the operations that the stream has still to perform, the calls
    that have returned an event of the stream, the number of the next call. *)
Record qst := mkQ { q_b : bst; q_q : list (nat * act); q_evs : list nat; q_n : nat }.
Definition with_b (st : qst) (b : bst) : qst := mkQ b (q_q st) (q_evs st) (q_n st).
Definition with_m (st : qst) (m : cmem) : qst := with_b st (mkBst (b_w (q_b st)) m (b_h (q_b st))).
(** The next call. *)
Definition next (st : qst) : qst := mkQ (q_b st) (q_q st) (q_evs st) (S (q_n st)).
Definition enqueue (st : qst) (a : act) : qst := mkQ (q_b st) (q_q st ++ [(q_n st, a)]) (q_n st :: q_evs st) (S (q_n st)).
(** The stream performs its next [n] operations. *)
Definition advance (n : nat) (st : qst) : option qst :=
  match q_run (firstn n (q_q st)) (b_m (q_b st)) with
  | Some m => Some (mkQ (mkBst (b_w (q_b st)) m (b_h (q_b st))) (skipn n (q_q st)) (q_evs st) (q_n st))
  | None => None
  end.
(** The number of operations that come before an event. *)
Fixpoint upto (k : nat) (q : list (nat * act)) : nat :=
  match q with (t, _) :: q' => if Nat.leb t k then S (upto k q') else 0%nat | [] => 0%nat end.

(** get_size (copy.ipp 115-137). *)
Definition q_size (f : buf) (st : qst) : option (Z * qst) :=
  if v_sizep (f_view f) =? 0 then Some (v_cap (f_view f), st)
  else match advance (length (q_q st)) st with
       | Some st' => match get_size (f_view f) (b_m (q_b st')) with (Ret n, _) => Some (n, st') | _ => None end
       | None => None
       end.
(** The copy of the size (copy.ipp 508-533). *)
Definition q_set_size (g : buf) (n : Z) (st : qst) : option qst :=
  if v_sizep (f_view g) =? 0 then Some st
  else match advance (length (q_q st)) st with
       | Some st' => match do_copy_in type_unknown (le32 n) (v_sizep (f_view g)) (b_m (q_b st')) with (Ret _, m) => Some (with_m st' m) | _ => None end
       | None => None
       end.

(** [QOp o]: a call; [QWait k]: wait for the event that call [k] has returned; [QTick n]: the stream goes on. *)
Inductive qop := QOp (o : bop) | QWait (k : nat) | QTick (n : nat).

Definition qstep (st : qst) (o : qop) : bres * qst :=
  match o with
  | QTick n => match advance n st with Some st' => (RDone, st') | None => (RUB, st) end
  | QWait k =>
      if existsb (Nat.eqb k) (q_evs st)
      then match advance (upto k (q_q st)) st with Some st' => (RDone, st') | None => (RUB, st) end
      else (RDone, st)
  | QOp (OSetup i) =>
      match get_buf (q_b st) i with
      | Some f => (RDone, if (v_sizep (f_view f) =? 0) || (v_cap (f_view f) =? 0) then next st else enqueue st (QSet 4 (v_sizep (f_view f)) 0))
      | None => (RUB, st)
      end
  | QOp (OMemset i value) =>
      match get_buf (q_b st) i with
      | Some f => (RDone, if v_cap (f_view f) =? 0 then next st else enqueue st (QSet (v_cap (f_view f) * f_esz f) (v_ptr (f_view f)) value))
      | None => (RUB, st)
      end
  | QOp (OSize i) =>
      match get_buf (q_b st) i with
      | Some f => match q_size f st with Some (n, st') => (RNum n, next st') | None => (RUB, st) end
      | None => (RUB, st)
      end
  | QOp (OCopy i j) =>
      match get_buf (q_b st) i, get_buf (q_b st) j with
      | Some f, Some g =>
          match q_size f st with
          | Some (n, st1) =>
              if n =? 0 then (RCopied false, next st1)
              else if v_cap (f_view g) <? n then (RExn length_error, next st1)
              else match q_set_size g n st1 with
                   | Some st2 => (RCopied true, enqueue st2 (QCopy (n * f_esz f) (v_ptr (f_view f)) (v_ptr (f_view g))))
                   | None => (RUB, st)
                   end
          | None => (RUB, st)
          end
      | _, _ => (RUB, st)
      end
  | QOp o => let p := bstep (q_b st) o in (fst p, next (with_b st (snd p)))
  end.
Fixpoint qruns (st : qst) (ops : list qop) : list bres * qst :=
  match ops with
  | [] => ([], st)
  | o :: ops' => let p := qstep st o in let q := qruns (snd p) ops' in (fst p :: fst q, snd q)
  end.
Definition qst0 (orc : nat -> option Z) : qst := mkQ (bst0 orc) [] [] 0.

(** ** Specification

    The buffers of BufProg.v, and the calls that have started something that may not be finished, each with the
    variables of the buffers that it uses. *)
Record sst := mkS { s_l : list (option abuf); s_pend : list (nat * list nat); s_n : nat }.
Inductive qverdict := QGood (s : sst) | QIllegal | QWrong.
Definition busy (pend : list (nat * list nat)) (i : nat) : bool := existsb (fun e => existsb (Nat.eqb i) (snd e)) pend.
(** The variables that must not be busy: those whose buffer the host accesses or releases. *)
Definition host_uses (o : bop) : list nat :=
  match o with ODestroy i | OPut i _ _ | OGet i _ | OSetSize i _ => [i] | OMove _ j => [j] | _ => [] end.
(** The variables of what a call starts. *)
Definition starts (l : list (option abuf)) (o : bop) (r : bres) : list nat :=
  match o, r with
  | OSetup i, _ => match alive l i with Some a => match a_size a with Fixed => [] | _ => [i] end | None => [] end
  | OMemset i _, _ => match alive l i with Some a => if a_cap a =? 0 then [] else [i] | None => [] end
  | OCopy i j, RCopied true => [i; j]
  | _, _ => []
  end.
(** A moved buffer is used under its new name. *)
Definition renamed (o : bop) (pend : list (nat * list nat)) : list (nat * list nat) :=
  match o with OMove i j => map (fun e => (fst e, map (fun x => if Nat.eqb x i then j else x) (snd e))) pend | _ => pend end.

Definition qjudge (s : sst) (o : qop) (r : bres) : qverdict :=
  match o with
  | QTick _ => match r with RDone => QGood s | _ => QWrong end
  | QWait k =>
      match r with
      | RDone => QGood (mkS (s_l s) (if existsb (fun e => Nat.eqb k (fst e)) (s_pend s) then filter (fun e => Nat.ltb k (fst e)) (s_pend s) else s_pend s) (s_n s))
      | _ => QWrong
      end
  | QOp o =>
      if existsb (busy (s_pend s)) (host_uses o) then QIllegal
      else match judge (s_l s) o r with
           | Good l' => QGood (mkS l' (renamed o (s_pend s) ++ match starts (s_l s) o r with [] => [] | bs => [(s_n s, bs)] end) (S (s_n s)))
           | Illegal => QIllegal
           | Wrong => QWrong
           end
  end.
Fixpoint qjudge_all (s : sst) (ops : list qop) (rs : list bres) : qverdict :=
  match ops, rs with
  | [], [] => QGood s
  | o :: ops', r :: rs' => match qjudge s o r with QGood s' => qjudge_all s' ops' rs' | v => v end
  | _, _ => QWrong
  end.

(** The calls of a program and their results. *)
Fixpoint calls (ops : list qop) (rs : list bres) : list bop * list bres :=
  match ops, rs with
  | QOp o :: ops', r :: rs' => (o :: fst (calls ops' rs'), r :: snd (calls ops' rs'))
  | _ :: ops', _ :: rs' => calls ops' rs'
  | _, _ => ([], [])
  end.
