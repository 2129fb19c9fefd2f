(** Programs with vector buffers and asynchronous copies on any number of streams.

    Sources: those of StreamProg.v.  Every copy object has its stream (cuda/src/utils/cuda/async_copy.cpp 86-156: the
    constructor keeps a stream, do_copy and do_memset put operations on it, create_event records an event on it); the
    operations of different streams are performed in any order.

    Simplifications: those of StreamProg.v; get_size and the copy of the size wait for the whole stream of the
    copy object. *)
From Verif Require Import Base Copy BufProg StreamProg.
From Coq Require Import ZArith List Bool.
Import ListNotations.
Local Open Scope Z_scope.

(** The stream of every call (async_copy.cpp 86): the state of StreamProg.v with the operations of all streams in the order of issue, and the streams of the calls. *)
Record rst := mkR { r_st : qst; r_str : list nat }.
Definition stream (str : list nat) (k : nat) : nat := nth k str 0%nat.
(** The operations in [p] are performed before the others (cudaMemcpyAsync and cudaMemsetAsync, async_copy.cpp 90-136). *)
Definition go (p : nat -> bool) (st : qst) : option qst :=
  match q_run (filter (fun e => p (fst e)) (q_q st)) (b_m (q_b st)) with
  | Some m => Some (mkQ (mkBst (b_w (q_b st)) m (b_h (q_b st))) (filter (fun e => negb (p (fst e))) (q_q st)) (q_evs st) (q_n st))
  | None => None
  end.
(** The operations of the stream of call [k] up to those of this call (cudaEventRecord and cudaEventSynchronize, async_copy.cpp
    47-53 and 138-156); all operations of a stream. *)
Definition covers (str : list nat) (k t : nat) : bool := Nat.eqb (stream str t) (stream str k) && Nat.leb t k.
Definition on (str : list nat) (c t : nat) : bool := Nat.eqb (stream str t) c.

(** get_size (copy.ipp 115-137) and the copy of the size (508-533) with a copy object of stream [c]. *)
Definition r_size (str : list nat) (c : nat) (f : buf) (st : qst) : option (Z * qst) :=
  if v_sizep (f_view f) =? 0 then Some (v_cap (f_view f), st)
  else match go (on str c) st with
       | Some st' => match get_size (f_view f) (b_m (q_b st')) with (Ret n, _) => Some (n, st') | _ => None end
       | None => None
       end.
Definition r_set_size (str : list nat) (c : nat) (g : buf) (n : Z) (st : qst) : option qst :=
  if v_sizep (f_view g) =? 0 then Some st
  else match go (on str c) st with
       | Some st' => match do_copy_in type_unknown (le32 n) (v_sizep (f_view g)) (b_m (q_b st')) with (Ret _, m) => Some (with_m st' m) | _ => None end
       | None => None
       end.

(** [ROp c o]: a call, with a copy object of stream [c]; [RWait k]: wait for the event that call [k] has returned;
    [RTick k]: the stream of call [k] performs what it has been given up to this call. *)
Inductive rop := ROp (c : nat) (o : bop) | RWait (k : nat) | RTick (k : nat).
Definition rcall (str : list nat) (c : nat) (st : qst) (o : bop) : bres * qst :=
  match o with
  | OSize i =>
      match get_buf (q_b st) i with
      | Some f => match r_size str c f st with Some (n, st') => (RNum n, next st') | None => (RUB, st) end
      | None => (RUB, st)
      end
  | OCopy i j =>
      match get_buf (q_b st) i, get_buf (q_b st) j with
      | Some f, Some g =>
          match r_size str c f st with
          | Some (n, st1) =>
              if n =? 0 then (RCopied false, next st1)
              else if v_cap (f_view g) <? n then (RExn length_error, next st1)
              else match r_set_size str c g n st1 with
                   | Some st2 => (RCopied true, enqueue st2 (QCopy (n * f_esz f) (v_ptr (f_view f)) (v_ptr (f_view g))))
                   | None => (RUB, st)
                   end
          | None => (RUB, st)
          end
      | _, _ => (RUB, st)
      end
  | _ => qstep st (QOp o)
  end.
Definition rstep (st : rst) (o : rop) : bres * rst :=
  match o with
  | ROp c o => let p := rcall (r_str st) c (r_st st) o in (fst p, mkR (snd p) (r_str st ++ [c]))
  | RTick k => match go (covers (r_str st) k) (r_st st) with Some q => (RDone, mkR q (r_str st)) | None => (RUB, st) end
  | RWait k =>
      if existsb (Nat.eqb k) (q_evs (r_st st))
      then match go (covers (r_str st) k) (r_st st) with Some q => (RDone, mkR q (r_str st)) | None => (RUB, st) end
      else (RDone, st)
  end.
Fixpoint rruns (st : rst) (ops : list rop) : list bres * rst :=
  match ops with
  | [] => ([], st)
  | o :: ops' => let p := rstep st o in let q := rruns (snd p) ops' in (fst p :: fst q, snd q)
  end.
Definition rst0 (orc : nat -> option Z) : rst := mkR (qst0 orc) [].

(** ** Specification *)
(** Among the variables of a pending call, the one that it writes is the last. *)
Definition written (bs : list nat) : list nat := firstn 1 (rev bs).
(** Used, or written, on another stream than [c]. *)
Definition others (str : list nat) (c : nat) (pend : list (nat * list nat)) : list (nat * list nat) := filter (fun e => negb (Nat.eqb (stream str (fst e)) c)) pend.
Definition busy_on_other (str : list nat) (c : nat) (pend : list (nat * list nat)) (i : nat) : bool := busy (others str c pend) i.
Definition written_on_other (str : list nat) (c : nat) (pend : list (nat * list nat)) (i : nat) : bool :=
  busy (map (fun e => (fst e, written (snd e))) (others str c pend)) i.
(** The variables that a call reads, and writes, on its stream. *)
Definition reads (o : bop) : list nat := match o with OSize i | OCopy i _ => [i] | _ => [] end.
Definition writes (o : bop) : list nat := match o with OSetup i | OMemset i _ | OCopy _ i => [i] | _ => [] end.
Definition clash (str : list nat) (c : nat) (pend : list (nat * list nat)) (o : bop) : bool :=
  existsb (written_on_other str c pend) (reads o) || existsb (busy_on_other str c pend) (writes o).
Inductive rverdict := RGood (s : sst) (str : list nat) | RIllegal | RWrong.
Definition rjudge (s : sst) (str : list nat) (o : rop) (r : bres) : rverdict :=
  match o with
  | RTick _ => match r with RDone => RGood s str | _ => RWrong end
  | RWait k =>
      match r with
      | RDone => RGood (mkS (s_l s) (if existsb (fun e => Nat.eqb k (fst e)) (s_pend s) then filter (fun e => negb (covers str k (fst e))) (s_pend s) else s_pend s) (s_n s)) str
      | _ => RWrong
      end
  | ROp c o =>
      if clash str c (s_pend s) o then RIllegal
      else match qjudge s (QOp o) r with QGood s' => RGood s' (str ++ [c]) | QIllegal => RIllegal | QWrong => RWrong end
  end.
Fixpoint rjudge_all (s : sst) (str : list nat) (ops : list rop) (rs : list bres) : rverdict :=
  match ops, rs with
  | [], [] => RGood s str
  | o :: ops', r :: rs' => match rjudge s str o r with RGood s' str' => rjudge_all s' str' ops' rs' | v => v end
  | _, _ => RWrong
  end.
(** The calls of a program and their results. *)
Fixpoint rcalls (ops : list rop) (rs : list bres) : list bop * list bres :=
  match ops, rs with
  | ROp _ o :: ops', r :: rs' => (o :: fst (rcalls ops' rs'), r :: snd (rcalls ops' rs'))
  | _ :: ops', _ :: rs' => rcalls ops' rs'
  | _, _ => ([], [])
  end.
