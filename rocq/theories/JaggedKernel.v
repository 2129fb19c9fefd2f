(** Threads that append to the inner vectors of a jagged vector in device memory.

    Sources: jagged_device_vector.ipp (core/include/vecmem/containers/impl) lines 44-53 (at)
    followed by push_back as in Kernel.v; the simplifications are the same.  The
    description of the inner vector is read from memory in one step. *)
From Verif Require Export Kernel Views.

(** A thread calls [vec.at(r).push_back(x)]: before the call of at, and afterwards with the
    device_vector made from [v].  The number [r] is kept for the statements only. *)
Inductive jthr := JAt (r : nat) (bs : list Z) | JIn (r : nat) (v : vview) (t : kthr).

Section JaggedKernel.
  Variable sz : Z.     (* sizeof(TYPE) *)
  Variable jv : jview.

  Definition jk_step (s : cmem * list jthr) (i : nat) : outcome (cmem * list jthr) :=
    let '(m, thr) := s in
    match nth_error thr i with
    | Some (JAt r bs) => let* v := jdv_at jv (Z.of_nat r) m in Ret (m, upd thr i (JIn r v (KCall bs)))
    | Some (JIn r v t) =>
        let* s' := k_step sz v (m, [t]) 0 in
        match s' with (m', [t']) => Ret (m', upd thr i (JIn r v t')) | _ => UB end
    | None => Ret (m, thr)
    end.

  Fixpoint jk_run (s : cmem * list jthr) (sched : list nat) : outcome (cmem * list jthr) :=
    match sched with
    | [] => Ret s
    | i :: sched' => let* s' := jk_step s i in jk_run s' sched'
    end.
End JaggedKernel.
