(** Threads that add elements to an SoA container in device memory, on the level of bytes.

    Sources (core/include/vecmem): edm/impl/device.ipp lines 55-85 (push_back_default),
    107-146 (at, operator[]) and 165-196 (construct_default, construct_vector),
    containers/impl/device_vector.ipp lines 511-520 (construct), edm/impl/proxy.ipp lines
    12-58 (constructor and get) for the access through a proxy.

    Simplifications: as in Kernel.v; the call of at, which reads the size of the container
    and of the vectors, is one step; every assignment through the proxy is one step; these
    plain reads of the size count as atomic, although in C++ they race with the increment of
    another thread (property C139). *)
From Verif Require Export DeviceVector Copy EdmDevice.

(** A thread calls push_back_default, then at with the index that it got, and assigns to
    some of the variables of the proxy: before the call; when the variables before [k] have
    been constructed; after the return; when the assignments before [k] have been made;
    at the end.  [row] gives the bytes to assign for every variable, if any. *)
Inductive ethr :=
| ECall (row : list (option (list Z)))
| EInit (idx : Z) (k : nat) (row : list (option (list Z)))
| EAt (idx : Z) (row : list (option (list Z)))
| EFill (idx : Z) (k : nat) (refs : list dref) (row : list (option (list Z)))
| EDone (idx : Z) (row : list (option (list Z))).

(** The value of the counter at an address; a counter that cannot be read is 0 (every
    caller then fails an assertion). *)
Definition rd32 (m : cmem) (p : Z) : Z := match get_bytes m p 4 with Some c => unle32 c | None => 0 end.

Section EdmKernel.
  Variable vars : list var.        (* the schema *)
  Variable d : edev.
  Variable dflt : list (list Z).   (* the bytes of a default constructed element, by variable *)

  Definition e_step (s : cmem * list ethr) (i : nat) : outcome (cmem * list ethr) :=
    let '(m, thr) := s in
    match nth_error thr i with
    | Some (ECall row) =>
        assert (negb (ed_sizep d =? 0)) (assert (dev_matches d)
          (match get_bytes m (ed_sizep d) 4 with
           | Some c =>
               let idx := unle32 c in
               assert (idx <? ed_cap d)
                 (Ret (put_bytes m (ed_sizep d) (le32 (add32 idx 1)), upd thr i (EInit idx 0 row)))
           | None => UB
           end))
    | Some (EInit idx k row) =>
        match nth_error vars k, nth_error (ed_vars d) k with
        | Some v, Some (EVector y) =>
            assert (idx <? Placement.v_cap y)
              (match get_bytes m (Placement.v_ptr y + idx * ve_sz v) (Z.to_nat (ve_sz v)) with
               | Some _ => Ret (put_bytes m (Placement.v_ptr y + idx * ve_sz v) (nth k dflt []), upd thr i (EInit idx (S k) row))
               | None => UB
               end)
        | Some _, Some _ => Ret (m, upd thr i (EInit idx (S k) row))
        | _, _ => Ret (m, upd thr i (EAt idx row))
        end
    | Some (EAt idx row) =>
        let* refs := dev_at (rd32 m) vars d idx in Ret (m, upd thr i (EFill idx 0 refs row))
    | Some (EFill idx k refs row) =>
        match nth_error vars k, nth_error refs k with
        | Some v, Some r =>
            match nth k row None, r with
            | None, _ => Ret (m, upd thr i (EFill idx (S k) refs row))
            | Some bs, RAt p =>
                match get_bytes m p (Z.to_nat (ve_sz v)) with
                | Some _ => Ret (put_bytes m p bs, upd thr i (EFill idx (S k) refs row))
                | None => UB
                end
            | Some _, RRow _ => UB
            end
        | _, _ => Ret (m, upd thr i (EDone idx row))
        end
    | Some (EDone _ _) | None => Ret (m, thr)
    end.

  Fixpoint e_run (s : cmem * list ethr) (sched : list nat) : outcome (cmem * list ethr) :=
    match sched with
    | [] => Ret s
    | i :: sched' => let* s' := e_step s i in e_run s' sched'
    end.
End EdmKernel.
