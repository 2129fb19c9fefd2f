(** Concurrent appending: the thread-safe calls of device_vector and edm::device.

    Every call claims slots with one atomic fetch_add on the size counter and then
    writes them; a step of a thread is the claim, the write of one element, or the
    return.  A schedule is an arbitrary list of thread numbers (sequentially
    consistent memory).

    Sources: device_vector.ipp (core/include/vecmem/containers/impl) emplace_back lines
    175-194, push_back lines 196-214, bulk_append lines 216-257; edm/impl/device.ipp
    push_back_default lines 53-84 and construct_default, construct_vector lines 161-191. *)
From Verif Require Export DeviceVector.

Section Conc.
  Context {A : Type}.

  (** A call: number of slots claimed, the kind of bounds assert ([index + n <=
      capacity] for bulk_append, [index < capacity] otherwise), and the elements to
      construct as (array, offset from the claimed index, value), in order.  For
      device_vector there is one array; for edm::device one per vector variable. *)
  Record cop := mkOp { o_n : Z; o_bulk : bool; o_writes : list (nat * Z * A) }.

  Definition op_push_back (a : A) : cop := mkOp 1 false [(0%nat, 0, a)].
  Definition op_bulk_append (n : Z) (a : A) : cop :=
    mkOp n true (map (fun k => (0%nat, Z.of_nat k, a)) (seq 0 (Z.to_nat n))).
  (** push_back_default with the default values of the vector variables. *)
  Definition op_push_back_default (dflts : list A) : cop :=
    mkOp 1 false (map (fun p => (fst p, 0, snd p)) (combine (seq 0 (length dflts)) dflts)).

  Inductive thread := TIdle (o : cop) | TWrite (idx : Z) (o : cop) (todo : list (nat * Z * A)) | TDone (idx : Z) (o : cop).

  Record cstate := mkC { c_cap : Z; c_size : Z; c_mem : list (list (cell A)); c_thr : list thread }.

  (** construct(index + off, value) on one of the arrays. *)
  Definition c_write (cap : Z) (mems : list (list (cell A))) (idx : Z) (w : nat * Z * A) : outcome (list (list (cell A))) :=
    let '(a, off, v) := w in
    match nth_error mems a with
    | None => UB
    | Some m => let* m' := d_construct cap m (add32 idx off) (AVal v) in Ret (upd mems a m')
    end.

  Definition c_step (s : cstate) (i : nat) : outcome cstate :=
    match nth_error (c_thr s) i with
    | Some (TIdle o) =>
        let idx := c_size s in
        assert (if o_bulk o then add32 idx (o_n o) <=? c_cap s else idx <? c_cap s)
          (Ret (mkC (c_cap s) (add32 idx (o_n o)) (c_mem s) (upd (c_thr s) i (TWrite idx o (o_writes o)))))
    | Some (TWrite idx o (w :: todo)) =>
        let* mems := c_write (c_cap s) (c_mem s) idx w in
        Ret (mkC (c_cap s) (c_size s) mems (upd (c_thr s) i (TWrite idx o todo)))
    | Some (TWrite idx o []) => Ret (mkC (c_cap s) (c_size s) (c_mem s) (upd (c_thr s) i (TDone idx o)))
    | Some (TDone _ _) | None => Ret s
    end.

  Fixpoint c_run (s : cstate) (sched : list nat) : outcome cstate :=
    match sched with
    | [] => Ret s
    | i :: sched' => let* s' := c_step s i in c_run s' sched'
    end.
End Conc.
Arguments cop A : clear implicits. Arguments thread A : clear implicits. Arguments cstate A : clear implicits.
