(** Asynchronous copies.

    Sources: cuda/src/utils/cuda/async_copy.cpp (do_copy, do_memset, create_event and the
    class cuda_event), core/src/utils/copy.cpp (no-op events),
    core/include/vecmem/utils/impl/copy.ipp (the functions built on them). *)
From Verif Require Export Base Copy.
From Verif Require Import EdmBuffer EdmCopy.

(** ** Operations on the stream
    Besides memory, operations may read and write local variables of the host code; these
    are numbered in the order of their creation.  [AOOut k n src x] copies into the local
    variable [x], [AOIn k n x dst] copies from it. *)
Inductive aop :=
| AOCopy (k : cptype) (n src dst : Z)
| AOOut (k : cptype) (n src : Z) (x : nat)
| AOIn (k : cptype) (n : Z) (x : nat) (dst : Z)
| AOSet (n dst value : Z).

(** Contents of the local variables; [None] for one that is out of scope. *)
Definition locals := list (option (list Z)).

Definition aop_uses (o : aop) (x : nat) : bool :=
  match o with AOOut _ _ _ y => Nat.eqb x y | AOIn _ _ y _ => Nat.eqb x y | _ => false end.

(** What the host does when it issues an operation (async_copy.cpp lines 88-99 and
    114-127): [Ret false] if there is nothing to do.  A wrong copy type is reported here. *)
Definition issue (o : aop) (m : cmem) : outcome bool :=
  match o with
  | AOCopy k n src dst =>
    if n =? 0 then Ret false else if (src =? 0) || (dst =? 0) then UB
    else if kind_check m k (m_dev m src) (m_dev m dst) then Ret true else Throw runtime_error
  | AOOut k n src x => if src =? 0 then UB else if kind_check m k (m_dev m src) false then Ret true else Throw runtime_error
  | AOIn k n x dst =>
    if n =? 0 then Ret false else if dst =? 0 then UB
    else if kind_check m k false (m_dev m dst) then Ret true else Throw runtime_error
  | AOSet n dst value => if n =? 0 then Ret false else if dst =? 0 then UB else Ret true
  end.

(** What the stream does when the operation is executed: None is undefined behaviour (a
    local variable that is no longer there, memory that must not be accessed). *)
Definition ok_mem (r : cm unit) : option cmem := match r with (Ret _, m) => Some m | _ => None end.
Definition aexec (o : aop) (s : cmem * locals) : option (cmem * locals) :=
  let '(m, l) := s in
  match o with
  | AOCopy k n src dst => match ok_mem (do_copy k n src dst m) with Some m' => Some (m', l) | None => None end
  | AOOut k n src x =>
    match nth_error l x with
    | Some (Some _) => match do_copy_out k n src m with (Ret bs, m') => Some (m', upd l x (Some bs)) | _ => None end
    | _ => None
    end
  | AOIn k n x dst =>
    match nth_error l x with
    | Some (Some bs) =>
      if Z.of_nat (length bs) =? n then match ok_mem (do_copy_in k bs dst m) with Some m' => Some (m', l) | None => None end else None
    | _ => None
    end
  | AOSet n dst value => match ok_mem (do_memset n dst value m) with Some m' => Some (m', l) | None => None end
  end.

(** ** Host programs
    [PIssue o kf k] issues [o], and continues with [k], or with [kf] if an error is
    reported; [PEvent] is create_event; [PWait], [PIgnore], [PDestroy] are wait, ignore and
    the destructor of an event; [PLocal], [PGet], [PFree] create, read and end a local
    variable. *)
Inductive prog (A : Type) :=
| PRet (a : A) | PThrow (e : exn) | PUB
| PIssue (o : aop) (kf : exn -> prog A) (k : prog A)
| PEvent (k : nat -> prog A)
| PWait (e : nat) (k : prog A) | PIgnore (e : nat) (k : prog A) | PDestroy (e : nat) (k : prog A)
| PLocal (bs : list Z) (k : nat -> prog A)
| PGet (x : nat) (k : list Z -> prog A)
| PFree (x : nat) (k : prog A).
Arguments PRet {A}. Arguments PThrow {A}. Arguments PUB {A}. Arguments PIssue {A}. Arguments PEvent {A}. Arguments PWait {A}.
Arguments PIgnore {A}. Arguments PDestroy {A}. Arguments PLocal {A}. Arguments PGet {A}. Arguments PFree {A}.

(** Sequential composition, and clean-up (destructors) on both ways out. *)
Fixpoint pbind {A B} (p : prog A) (f : A -> prog B) : prog B :=
  match p with
  | PRet a => f a
  | PThrow e => PThrow e
  | PUB => PUB
  | PIssue o kf k => PIssue o (fun e => pbind (kf e) f) (pbind k f)
  | PEvent k => PEvent (fun e => pbind (k e) f)
  | PWait e k => PWait e (pbind k f)
  | PIgnore e k => PIgnore e (pbind k f)
  | PDestroy e k => PDestroy e (pbind k f)
  | PLocal bs k => PLocal bs (fun x => pbind (k x) f)
  | PGet x k => PGet x (fun bs => pbind (k bs) f)
  | PFree x k => PFree x (pbind k f)
  end.
Fixpoint pfinally {A} (p : prog A) (c : prog A -> prog A) : prog A :=
  match p with
  | PRet a => c (PRet a)
  | PThrow e => c (PThrow e)
  | PUB => PUB
  | PIssue o kf k => PIssue o (fun e => pfinally (kf e) c) (pfinally k c)
  | PEvent k => PEvent (fun e => pfinally (k e) c)
  | PWait e k => PWait e (pfinally k c)
  | PIgnore e k => PIgnore e (pfinally k c)
  | PDestroy e k => PDestroy e (pfinally k c)
  | PLocal bs k => PLocal bs (fun x => pfinally (k x) c)
  | PGet x k => PGet x (fun bs => pfinally (k bs) c)
  | PFree x k => PFree x (pfinally k c)
  end.

(** ** Events (class cuda_event, async_copy.cpp lines 27-67)
    [eo_pos]: number of operations issued before the event was recorded; [eo_null]: m_event
    is null; [eo_destroyed]: number of calls of cudaEventDestroy; [eo_alive]: the object
    has not been destroyed. *)
Record evobj := mkEO { eo_pos : nat; eo_null : bool; eo_destroyed : nat; eo_alive : bool }.
(** ignore, lines 56-62. *)
Definition ev_ignore (o : evobj) : evobj := if eo_null o then o else mkEO (eo_pos o) true (S (eo_destroyed o)) (eo_alive o).
Definition ev_dead (o : evobj) : evobj := mkEO (eo_pos o) (eo_null o) (eo_destroyed o) false.

Section Semantics.
  (** VECMEM_FAIL_ON_ASYNC_ERRORS: the destructor of an event that has not been waited for
      calls std::terminate (lines 38-41), which is represented by [PUB]. *)
  Variable fail_on_async_errors : bool.

  (** *** The stream: operations are executed one after the other in the order of issue,
      at any time after they were issued. *)
  Record astate := mkA { a_mem : cmem; a_loc : locals; a_q : list aop; a_exec : nat; a_evs : list evobj }.

  (** All operations before the event have been executed. *)
  Definition ev_ready (o : evobj) (a : astate) : bool := Nat.leb (eo_pos o) (a_exec a).

  (** A step of the host; [None] if the program has ended or has to wait. *)
  Definition host_step {A} (p : prog A) (a : astate) : option (prog A * astate) :=
    let set_evs evs := mkA (a_mem a) (a_loc a) (a_q a) (a_exec a) evs in
    let set_loc l := mkA (a_mem a) l (a_q a) (a_exec a) (a_evs a) in
    match p with
    | PRet _ | PThrow _ | PUB => None
    | PIssue o kf k =>
      match issue o (a_mem a) with
      | Ret true => Some (k, mkA (a_mem a) (a_loc a) (a_q a ++ [o]) (a_exec a) (a_evs a))
      | Ret false => Some (k, a)
      | Throw e => Some (kf e, a)
      | UB => Some (PUB, a)
      end
    | PEvent k => Some (k (length (a_evs a)), set_evs (a_evs a ++ [mkEO (a_exec a + length (a_q a)) false 0 true]))
    | PWait e k =>
      match nth_error (a_evs a) e with
      | Some o => if negb (eo_alive o) then Some (PUB, a)
                  else if eo_null o then Some (k, a)
                  else if ev_ready o a then Some (k, set_evs (upd (a_evs a) e (ev_ignore o)))
                  else None
      | None => Some (PUB, a)
      end
    | PIgnore e k =>
      match nth_error (a_evs a) e with
      | Some o => if negb (eo_alive o) then Some (PUB, a) else Some (k, set_evs (upd (a_evs a) e (ev_ignore o)))
      | None => Some (PUB, a)
      end
    | PDestroy e k =>
      match nth_error (a_evs a) e with
      | Some o => if negb (eo_alive o) then Some (PUB, a)
                  else if eo_null o then Some (k, set_evs (upd (a_evs a) e (ev_dead o)))
                  else if ev_ready o a then
                    Some (if fail_on_async_errors then PUB else k, set_evs (upd (a_evs a) e (ev_dead (ev_ignore o))))
                  else None
      | None => Some (PUB, a)
      end
    | PLocal bs k => Some (k (length (a_loc a)), set_loc (a_loc a ++ [Some bs]))
    | PGet x k => match nth_error (a_loc a) x with Some (Some bs) => Some (k bs, a) | _ => Some (PUB, a) end
    | PFree x k => match nth_error (a_loc a) x with Some (Some _) => Some (k, set_loc (upd (a_loc a) x None)) | _ => Some (PUB, a) end
    end.

  (** A step of the stream.  Nothing is said about what follows after undefined behaviour. *)
  Definition stream_step {A} (p : prog A) (a : astate) : option (prog A * astate) :=
    match a_q a with
    | [] => None
    | o :: q => match aexec o (a_mem a, a_loc a) with
                | Some (m, l) => Some (p, mkA m l q (S (a_exec a)) (a_evs a))
                | None => Some (PUB, mkA (a_mem a) (a_loc a) [] (a_exec a) (a_evs a))
                end
    end.

  Inductive astep {A} : prog A * astate -> prog A * astate -> Prop :=
  | step_host p a c : host_step p a = Some c -> astep (p, a) c
  | step_stream p a c : stream_step p a = Some c -> astep (p, a) c.
  Inductive asteps {A} : prog A * astate -> prog A * astate -> Prop :=
  | steps_refl c : asteps c c
  | steps_trans c1 c2 c3 : astep c1 c2 -> asteps c2 c3 -> asteps c1 c3.

  (** *** The reference: every operation is performed when it is issued.
      [s_last x]: number of operations issued up to the last one that uses the local
      variable [x]; [s_done]: number of operations that are known to be complete, because
      of a wait.  A local variable may only be read, or ended, if all operations
      using it are known to be complete; everything else is undefined. *)
  Record sstate := mkS { s_mem : cmem; s_loc : locals; s_last : list nat; s_pos : nat; s_done : nat; s_evs : list evobj }.
  Definition touch (o : aop) (pos : nat) (last : list nat) : list nat :=
    match o with AOOut _ _ _ x => upd last x pos | AOIn _ _ x _ => upd last x pos | _ => last end.

  Fixpoint srun {A} (p : prog A) (s : sstate) : outcome A * sstate :=
    let set_evs evs d := mkS (s_mem s) (s_loc s) (s_last s) (s_pos s) d evs in
    match p with
    | PRet a => (Ret a, s)
    | PThrow e => (Throw e, s)
    | PUB => (UB, s)
    | PIssue o kf k =>
      match issue o (s_mem s) with
      | Ret true =>
        match aexec o (s_mem s, s_loc s) with
        | Some (m, l) => srun k (mkS m l (touch o (S (s_pos s)) (s_last s)) (S (s_pos s)) (s_done s) (s_evs s))
        | None => (UB, s)
        end
      | Ret false => srun k s
      | Throw e => srun (kf e) s
      | UB => (UB, s)
      end
    | PEvent k => srun (k (length (s_evs s))) (set_evs (s_evs s ++ [mkEO (s_pos s) false 0 true]) (s_done s))
    | PWait e k =>
      match nth_error (s_evs s) e with
      | Some o => if negb (eo_alive o) then (UB, s)
                  else if eo_null o then srun k s
                  else srun k (set_evs (upd (s_evs s) e (ev_ignore o)) (Nat.max (s_done s) (eo_pos o)))
      | None => (UB, s)
      end
    | PIgnore e k =>
      match nth_error (s_evs s) e with
      | Some o => if negb (eo_alive o) then (UB, s) else srun k (set_evs (upd (s_evs s) e (ev_ignore o)) (s_done s))
      | None => (UB, s)
      end
    | PDestroy e k =>
      match nth_error (s_evs s) e with
      | Some o => if negb (eo_alive o) then (UB, s)
                  else if eo_null o then srun k (set_evs (upd (s_evs s) e (ev_dead o)) (s_done s))
                  else if fail_on_async_errors then (UB, s)
                  else srun k (set_evs (upd (s_evs s) e (ev_dead (ev_ignore o))) (Nat.max (s_done s) (eo_pos o)))
      | None => (UB, s)
      end
    | PLocal bs k => srun (k (length (s_loc s))) (mkS (s_mem s) (s_loc s ++ [Some bs]) (s_last s ++ [0%nat]) (s_pos s) (s_done s) (s_evs s))
    | PGet x k =>
      match nth_error (s_loc s) x, nth_error (s_last s) x with
      | Some (Some bs), Some n => if Nat.leb n (s_done s) then srun (k bs) s else (UB, s)
      | _, _ => (UB, s)
      end
    | PFree x k =>
      match nth_error (s_loc s) x, nth_error (s_last s) x with
      | Some (Some _), Some n =>
        if Nat.leb n (s_done s) then srun k (mkS (s_mem s) (upd (s_loc s) x None) (s_last s) (s_pos s) (s_done s) (s_evs s)) else (UB, s)
      | _, _ => (UB, s)
      end
    end.
End Semantics.

(** The start: no operation has been issued. *)
Definition a_init (m : cmem) : astate := mkA m [] [] 0 [].
Definition s_init (m : cmem) : sstate := mkS m [] [] 0 0 [].

(** ** The functions of copy.ipp *)
Section Functions.
  (** An issue without clean-up. *)
  Definition p_issue (o : aop) : prog unit := PIssue o PThrow (PRet tt).
  (** Events: [None] is the no-op event of vecmem::copy::create_event. *)
  Definition p_event : prog (option nat) := PEvent (fun e => PRet (Some e)).
  Definition p_wait {A} (e : option nat) (p : prog A) : prog A := match e with Some e => PWait e p | None => p end.
  Definition p_destroy {A} (e : option nat) (p : prog A) : prog A := match e with Some e => PDestroy e p | None => p end.
  (** [create_event()->wait();] *)
  Definition p_sync {A} (p : prog A) : prog A := PEvent (fun e => PWait e (PDestroy e p)).

  (** Copy into a local variable, wait, and read it: get_size 115-137 and get_sizes_impl
      693-725. *)
  Definition p_copy_out (k : cptype) (n src : Z) : prog (list Z) :=
    PLocal (repeat 0 (Z.to_nat n)) (fun x => PIssue (AOOut k n src x) (fun e => PFree x (PThrow e))
      (p_sync (PGet x (fun bs => PFree x (PRet bs))))).
  (** Copy from a local variable, and wait: copy_view_impl 526-534, copy_sizes_impl 879-885. *)
  Definition p_copy_in (k : cptype) (bs : list Z) (dst : Z) : prog unit :=
    PLocal bs (fun x => PIssue (AOIn k (Z.of_nat (length bs)) x dst) (fun e => PFree x (PThrow e)) (p_sync (PFree x (PRet tt)))).

  Variable sz : Z.

  (** What is returned: the event of create_event() if the function ends that way ([true]),
      or the no-op event of vecmem::copy::create_event() ([false]).  The definitions that
      follow give this flag. *)
  Definition p_with_event (p : prog bool) : prog (option nat) :=
    pbind p (fun b : bool => if b then p_event else PRet None).
  (** Users call a function, wait on the event returned, and destroy it ... *)
  Definition p_call (p : prog bool) : prog unit := pbind (p_with_event p) (fun e => p_wait e (p_destroy e (PRet tt))).
  (** ... or drop the event. *)
  Definition p_drop (p : prog bool) : prog unit := pbind (p_with_event p) (fun e => p_destroy e (PRet tt)).

  (** setup, lines 28-46. *)
  Definition p_setup_vector (v : vview) : prog bool :=
    if (v_sizep v =? 0) || (v_cap v =? 0) then PRet false else pbind (p_issue (AOSet 4 (v_sizep v) 0)) (fun _ => PRet true).
  (** memset, lines 48-63. *)
  Definition p_memset_vector (v : vview) (value : Z) : prog bool :=
    if v_cap v =? 0 then PRet false else pbind (p_issue (AOSet (v_cap v * sz) (v_ptr v) value)) (fun _ => PRet true).
  (** get_size, lines 115-137. *)
  Definition p_get_size (v : vview) : prog Z :=
    if v_sizep v =? 0 then PRet (v_cap v) else pbind (p_copy_out type_unknown 4 (v_sizep v)) (fun bs => PRet (unle32 bs)).
  (** copy_view_impl, lines 487-539; operator() (83-95) returns an event in the same way. *)
  Definition p_copy_vector (k : cptype) (from to : vview) : prog bool :=
    pbind (p_get_size from) (fun n =>
      if n =? 0 then PRet false
      else if v_cap to <? n then PThrow length_error
      else pbind (if v_sizep to =? 0 then PRet tt else p_copy_in (size_cptype k) (le32 n) (v_sizep to)) (fun _ =>
           pbind (p_issue (AOCopy k (n * sz) (v_ptr from) (v_ptr to))) (fun _ => PRet true))).
  (** get_sizes, lines 268-276 and 693-725. *)
  Fixpoint p_get_sizes_from (l : list vview) : prog (option (list Z)) :=
    match l with
    | [] => PRet None
    | v :: l' =>
      if negb (v_cap v =? 0) && negb (v_sizep v =? 0) then
        pbind (p_copy_out type_unknown (4 * Z.of_nat (length l)) (v_sizep v)) (fun bs => PRet (Some (unle32s (length l) bs)))
      else pbind (p_get_sizes_from l') (fun r => PRet (option_map (cons 0) r))
    end.
  Definition p_get_sizes (l : list vview) : prog (list Z) :=
    pbind (p_get_sizes_from l) (fun r => match r with Some s => PRet s | None => PRet (map v_cap l) end).

  (** set_sizes, lines 278-328; [x] is the variable [sizes] of the caller, whose value is
      [s]. *)
  Definition p_set_sizes (x : nat) (s : list Z) (l : list vview) : prog bool :=
    match s, l with
    | [], [] => PRet false
    | _, _ =>
      if negb (Nat.eqb (length s) (length l)) then PThrow length_error
      else match check_sizes s l true with
           | Throw e => PThrow e
           | Ret true => pbind (p_issue (AOIn type_unknown (Z.of_nat (length (flat_map le32 s))) x (match l with v :: _ => v_sizep v | [] => 0 end)))
                               (fun _ => PRet true)
           | _ => PRet false
           end
    end.

  (** copy_views_impl, lines 609-648, and copy_views_contiguous_impl, 650-691. *)
  Fixpoint p_copy_views (k : cptype) (s : list Z) (from to : list vview) : prog unit :=
    match s, from, to with
    | n :: s', f :: from', t :: to' =>
      if n =? 0 then p_copy_views k s' from' to'
      else if negb (v_ptr f =? 0) && negb (v_ptr t =? 0) && (n <=? v_cap f) && (n <=? v_cap t)
      then pbind (p_issue (AOCopy k (n * sz) (v_ptr f) (v_ptr t))) (fun _ => p_copy_views k s' from' to')
      else PUB
    | [], _, _ => PRet tt
    | _, _, _ => PUB
    end.
  Fixpoint p_copy_first (k : cptype) (total : Z) (s : list Z) (from to : list vview) : prog unit :=
    match s, from, to with
    | n :: s', f :: from', t :: to' =>
      if n =? 0 then p_copy_first k total s' from' to'
      else if negb (v_ptr f =? 0) && negb (v_ptr t =? 0) then p_issue (AOCopy k total (v_ptr f) (v_ptr t))
      else PUB
    | [], _, _ => PRet tt
    | _, _, _ => PUB
    end.

  (** copy_view_impl, lines 541-607.  [sizes] is destroyed on every way out, after
      [set_sizes_event]. *)
  Definition p_copy_jagged (k : cptype) (from to : list vview) : prog bool :=
    if Nat.ltb (length to) (length from) then PThrow length_error
    else match from with
    | [] => PRet false
    | _ =>
      match is_contiguous sz from, is_contiguous sz (firstn (length from) to) with
      | Ret fc, Ret tc =>
        pbind (p_get_sizes from) (fun s =>
        PLocal (flat_map le32 s) (fun x =>
        pfinally
          (pbind (p_with_event (p_set_sizes x s to)) (fun ev =>
             pfinally
               (pbind (if fc && tc && caps_match from to then p_copy_first k (fold_right Z.add 0 (map v_cap from) * sz) (map v_cap from) from to
                       else p_copy_views k s from to)
                      (fun _ => p_wait ev (PRet true)))
               (p_destroy ev)))
          (PFree x)))
      | _, _ => PUB
      end
    end.

  (** setup, lines 139-173; the description of the inner vectors is left out as in
      [setup_jagged]. *)
  Definition p_setup_jagged (l : list vview) : prog bool :=
    match l with
    | [] => PRet false
    | v :: _ => pbind (if v_sizep v =? 0 then PRet tt else p_issue (AOSet (4 * Z.of_nat (length l)) (v_sizep v) 0)) (fun _ => PRet true)
    end.
  (** memset, lines 175-213. *)
  Fixpoint p_memset_first (total : Z) (l : list vview) (value : Z) : prog bool :=
    match l with
    | [] => PRet false
    | v :: l' => if negb (v_cap v =? 0) && negb (v_ptr v =? 0) then pbind (p_issue (AOSet (total * sz) (v_ptr v) value)) (fun _ => PRet true)
                 else p_memset_first total l' value
    end.
  Fixpoint p_memset_each (l : list vview) (value : Z) : prog bool :=
    match l with
    | [] => PRet true
    | v :: l' => pbind (p_issue (AOSet (v_cap v * sz) (v_ptr v) value)) (fun _ => p_memset_each l' value)
    end.
  Definition p_memset_jagged (l : list vview) (value : Z) : prog bool :=
    match is_contiguous sz l with
    | Ret true => p_memset_first (total_cap l) l value
    | Ret false => p_memset_each l value
    | _ => PUB
    end.
End Functions.

(** A sequence of calls of do_copy and do_memset, followed by create_event ([p_call] waits
    on it); and the same operations performed one after the other. *)
Fixpoint p_ops (l : list aop) : prog bool :=
  match l with [] => PRet true | o :: l' => pbind (p_issue o) (fun _ => p_ops l') end.
Definition sync_op (o : aop) (m : cmem) : cm unit :=
  match o with
  | AOCopy k n src dst => do_copy k n src dst m
  | AOSet n dst v => do_memset n dst v m
  | _ => (UB, m)
  end.
Fixpoint sync_ops (l : list aop) (m : cmem) : cm unit :=
  match l with [] => (Ret tt, m) | o :: l' => cbind (sync_op o m) (fun _ m => sync_ops l' m) end.

(** ** SoA containers (copy.ipp lines 330-485 and 745-926) *)
Section Edm.
  Variable vars : list var.

  (** setup, lines 330-360; the layout is left out as in [edm_setup]. *)
  Definition p_edm_setup (e : edm_view) : prog bool :=
    if ev_cap e =? 0 then PRet false
    else pbind (if m_ptr (ev_size e) =? 0 then PRet tt
                else if m_len (ev_size e) =? 0 then PUB
                else p_issue (AOSet (m_len (ev_size e)) (m_ptr (ev_size e)) 0)) (fun _ => PRet true).

  (** memset, lines 362-376, and memset_impl, 745-763: the events of the inner calls are
      dropped. *)
  Fixpoint p_memset_vars (vs : list var) (es : list eview) (value : Z) : prog unit :=
    match vs, es with
    | v :: vs', e :: es' =>
      pbind (match e with
             | EScalar p => p_issue (AOSet (ve_sz v) p value)
             | EVector x => p_drop (p_memset_vector (ve_sz v) (cv x) value)
             | EJagged _ _ _ inner => p_drop (p_memset_jagged (ve_sz v) (map cv inner) value)
             end) (fun _ => p_memset_vars vs' es' value)
    | _, _ => PRet tt
    end.
  Definition p_edm_memset (e : edm_view) (value : Z) : prog bool :=
    pbind (if negb (m_ptr (ev_payload e) =? 0) then p_drop (p_memset_vector 1 (raw_view (ev_payload e)) value)
           else p_memset_vars vars (ev_vars e) value) (fun _ => PRet true).

  (** get_size, lines 448-485. *)
  Definition p_edm_get_size (e : edm_view) : prog Z :=
    if jagged_schema vars then PRet (ev_cap e)
    else if m_ptr (ev_size e) =? 0 then PRet (ev_cap e)
    else if negb (m_len (ev_size e) =? 4) then PUB
    else pbind (p_copy_out type_unknown 4 (m_ptr (ev_size e))) (fun bs => PRet (unle32 bs)).

  (** copy_sizes_impl, lines 844-902. *)
  Fixpoint p_copy_sizes_vars (fs ts : list eview) : prog unit :=
    match fs, ts with
    | EJagged _ _ _ f :: fs', EJagged _ _ _ t :: ts' =>
      pbind (pbind (p_get_sizes (map cv f)) (fun s =>
             PLocal (flat_map le32 s) (fun x => pfinally (p_call (p_set_sizes x s (map cv t))) (PFree x))))
            (fun _ => p_copy_sizes_vars fs' ts')
    | _ :: fs', _ :: ts' => p_copy_sizes_vars fs' ts'
    | _, _ => PRet tt
    end.
  Definition p_copy_sizes (k : cptype) (from to : edm_view) : prog unit :=
    if jagged_schema vars then p_copy_sizes_vars (ev_vars from) (ev_vars to)
    else p_copy_in (size_cptype k) (le32 (ev_cap from)) (m_ptr (ev_size to)).

  (** copy_payload_impl, lines 904-926. *)
  Fixpoint p_copy_vars (k : cptype) (vs : list var) (fs ts : list eview) : prog unit :=
    match vs, fs, ts with
    | v :: vs', f :: fs', t :: ts' =>
      pbind (match f, t with
             | EScalar p, EScalar q => p_issue (AOCopy k (ve_sz v) p q)
             | EVector x, EVector y => pbind (p_copy_vector (ve_sz v) k (cv x) (cv y)) (fun _ => PRet tt)
             | EJagged _ _ _ x, EJagged _ _ _ y => pbind (p_copy_jagged (ve_sz v) k (map cv x) (map cv y)) (fun _ => PRet tt)
             | _, _ => PUB
             end) (fun _ => p_copy_vars k vs' fs' ts')
    | _, _, _ => PRet tt
    end.

  (** operator(), lines 378-432. *)
  Definition p_edm_copy (k : cptype) (from to : edm_view) : prog bool :=
    if negb (m_ptr (ev_payload from) =? 0) && negb (m_ptr (ev_payload to) =? 0) && (m_len (ev_payload from) =? m_len (ev_payload to)) then
      if m_len (ev_payload from) =? 0 then PRet false
      else pbind (pbind (p_copy_vector 1 k (raw_view (ev_payload from)) (raw_view (ev_payload to))) (fun _ =>
        if m_ptr (ev_size to) =? 0 then PRet tt
        else if negb (m_ptr (ev_size from) =? 0) then
          if negb (m_len (ev_size from) =? m_len (ev_size to)) then PThrow length_error
          else pbind (p_copy_vector 1 k (raw_view (ev_size from)) (raw_view (ev_size to))) (fun _ => PRet tt)
        else p_copy_sizes k from to)) (fun _ => PRet true)
    else pbind (p_copy_vars k vars (ev_vars from) (ev_vars to)) (fun _ => PRet true).
End Edm.
