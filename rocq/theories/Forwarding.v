(** Models of the memory resources that mostly forward to upstream resources:
    identity, terminal, conditional, choice, coalescing and debug. *)
From Verif Require Import Base.

(** ** Several upstream resources

    Upstream resources are numbered; one common log (newest first) records which
    of them was called.  The oracle gives the answer of each call. *)
Record mworld := mkMWorld { mlog : list (nat * uevent); morc : nat -> option Z }.

Definition m_alloc (w : mworld) (r : nat) (size align : Z) : option Z * mworld :=
  let a := morc w (length (mlog w)) in
  (a, mkMWorld ((r, UAlloc size align a) :: mlog w) (morc w)).

Definition m_free (w : mworld) (r : nat) (p size align : Z) : mworld :=
  mkMWorld ((r, UFree p size align) :: mlog w) (morc w).

(** Blocks tagged with the resource they belong to. *)
Definition tblock := (nat * block)%type.
Definition tblock_eq_dec (x y : tblock) : {x = y} + {x <> y}.
Proof. decide equality; [apply block_eq_dec|apply Nat.eq_dec]. Defined.

Fixpoint tremove1 (b : tblock) (l : list tblock) : list tblock :=
  match l with
  | [] => []
  | c :: l' => if tblock_eq_dec b c then l' else c :: tremove1 b l'
  end.

(** Blocks allocated and not freed, with the upstream resource they came from. *)
Fixpoint mlive (l : list (nat * uevent)) : list tblock :=
  match l with
  | [] => []
  | (r, UAlloc s a (Some p)) :: l' => (r, mkBlock p s a) :: mlive l'
  | (_, UAlloc _ _ None) :: l' => mlive l'
  | (r, UFree p s a) :: l' => tremove1 (r, mkBlock p s a) (mlive l')
  end.

(** Upstream promise: returned addresses are non-null and differ from the
    addresses of all blocks live at that time (of any upstream). *)
Fixpoint distinct_ok (l : list (nat * uevent)) : Prop :=
  match l with
  | [] => True
  | (_, UAlloc _ _ (Some p)) :: l' =>
      p <> 0 /\ (forall c, In c (mlive l') -> bptr (snd c) <> p) /\ distinct_ok l'
  | _ :: l' => distinct_ok l'
  end.

(** The resource that took the newest upstream call. *)
Definition newest (w : mworld) : nat :=
  match mlog w with (r, _) :: _ => r | [] => O end.

(** [m_allocations], an (unordered) map from addresses to resources. *)
Definition amap := list (Z * nat).
Fixpoint am_find (m : amap) (p : Z) : option nat :=
  match m with
  | [] => None
  | (q, r) :: m' => if p =? q then Some r else am_find m' p
  end.
(** [emplace] does nothing when the key exists. *)
Definition am_emplace (m : amap) (p : Z) (r : nat) : amap :=
  match am_find m p with Some _ => m | None => (p, r) :: m end.
Fixpoint am_erase (m : amap) (p : Z) : amap :=
  match m with
  | [] => []
  | (q, r) :: m' => if p =? q then m' else (q, r) :: am_erase m' p
  end.

(** core/src/memory/details/choice_memory_resource_impl.cpp, lines 21-40.  The
    decision function is arbitrary and may change its mind between calls: it also
    sees the number of upstream calls made so far. *)
Definition choice_allocate (dec : nat -> Z -> Z -> nat) (m : amap) (w : mworld)
    (size align : Z) : outcome Z * amap * mworld :=
  if size =? 0 then (Ret 0, m, w)
  else
    let res := dec (length (mlog w)) size align in
    match m_alloc w res size align with
    | (Some p, w') => (Ret p, am_emplace m p res, w')
    | (None, w') => (Throw bad_alloc, m, w')
    end.

(** choice_memory_resource_impl.cpp lines 42-67 and
    coalescing_memory_resource_impl.cpp lines 56-81 (the same code): [extract],
    [assert(nh)], forward to the recorded resource. *)
Definition tracked_deallocate (m : amap) (w : mworld) (p size align : Z)
  : outcome unit * amap * mworld :=
  if p =? 0 then (Ret tt, m, w)
  else match am_find m p with
       | None => (UB, m, w)
       | Some res => (Ret tt, am_erase m p, m_free w res p size align)
       end.

(** coalescing_memory_resource_impl.cpp, lines 31-53: the loop over
    [m_upstreams], given as the list of resources still to try. *)
Fixpoint coalescing_loop (ups : list nat) (m : amap) (w : mworld) (size align : Z)
  : outcome Z * amap * mworld :=
  match ups with
  | [] => (Throw bad_alloc, m, w)
  | res :: ups' =>
      match m_alloc w res size align with
      | (Some p, w') => (Ret p, am_emplace m p res, w')
      | (None, w') => coalescing_loop ups' m w' size align
      end
  end.

(** coalescing_memory_resource_impl.cpp, lines 21-54. *)
Definition coalescing_allocate (ups : list nat) (m : amap) (w : mworld)
    (size align : Z) : outcome Z * amap * mworld :=
  if size =? 0 then (Ret 0, m, w) else coalescing_loop ups m w size align.

(** Histories over tagged upstreams: as [reach], but a live block also carries
    the upstream resource that took the last call of its allocation. *)
Section THistory.
  Variable alloc : amap -> mworld -> Z -> Z -> outcome Z * amap * mworld.
  Variable free : amap -> mworld -> Z -> Z -> Z -> outcome unit * amap * mworld.
  Inductive treach : amap -> mworld -> list tblock -> Prop :=
  | treach_init w : mlog w = [] -> treach [] w []
  | treach_alloc m w live size align p m' w' :
      treach m w live -> alloc m w size align = (Ret p, m', w') ->
      treach m' w' (if size =? 0 then live
                    else (newest w', mkBlock p size align) :: live)
  | treach_alloc_throw m w live size align e m' w' :
      treach m w live -> alloc m w size align = (Throw e, m', w') -> treach m' w' live
  | treach_free m w live r b m' w' :
      treach m w live -> In (r, b) live ->
      free m w (bptr b) (bsize b) (balign b) = (Ret tt, m', w') ->
      treach m' w' (tremove1 (r, b) live)
  | treach_free_null m w live size align m' w' :
      treach m w live -> free m w 0 size align = (Ret tt, m', w') -> treach m' w' live.
End THistory.

(** ** One upstream resource *)

(** core/src/memory/identity_memory_resource.cpp, lines 19-30 and 32-43: forward. *)
Definition identity_allocate (w : world) (size align : Z) : outcome Z * world :=
  if size =? 0 then (Ret 0, w)
  else match up_alloc w size align with
       | (Some p, w') => (Ret p, w')
       | (None, w') => (Throw bad_alloc, w')
       end.
Definition identity_deallocate (w : world) (p size align : Z) : outcome unit * world :=
  if p =? 0 then (Ret tt, w) else (Ret tt, up_free w p size align).

(** core/src/memory/terminal_memory_resource.cpp, lines 23-29 and 31-37: always
    refuse (also requests of size 0); deallocation does nothing. *)
Definition terminal_allocate (w : world) (size align : Z) : outcome Z * world :=
  (Throw bad_alloc, w).
Definition terminal_deallocate (w : world) (p size align : Z) : outcome unit * world :=
  (Ret tt, w).

(** conditional_memory_resource_impl.cpp, lines 19-35 and 37-50.  The predicate
    may be stateful: it also sees the number of the call. *)
Definition conditional_allocate (pred : nat -> Z -> Z -> bool) (n : nat) (w : world)
    (size align : Z) : outcome Z * world :=
  if size =? 0 then (Ret 0, w)
  else if pred n size align then
    match up_alloc w size align with
    | (Some p, w') => (Ret p, w')
    | (None, w') => (Throw bad_alloc, w')
    end
  else (Throw bad_alloc, w).
Definition conditional_deallocate (w : world) (p size align : Z) : outcome unit * world :=
  if p =? 0 then (Ret tt, w) else (Ret tt, up_free w p size align).

(** debug_memory_resource_impl.cpp.  [m_allocations] maps an address to the size
    and alignment: a list of blocks. *)
Definition dstate := list block.
Fixpoint d_find (m : dstate) (p : Z) : option block :=
  match m with
  | [] => None
  | b :: m' => if p =? bptr b then Some b else d_find m' p
  end.
Definition d_emplace (m : dstate) (b : block) : dstate :=
  match d_find m (bptr b) with Some _ => m | None => b :: m end.
Fixpoint d_erase (m : dstate) (p : Z) : dstate :=
  match m with
  | [] => []
  | b :: m' => if p =? bptr b then m' else b :: d_erase m' p
  end.

(** Line 50: [ptr < i_end && i_beg < end].  Pointer arithmetic does not wrap. *)
Definition d_overlaps (p size : Z) (b : block) : bool :=
  (p <? bptr b + bsize b) && (bptr b <? p + size).

(** Lines 22-67. *)
Definition debug_allocate (m : dstate) (w : world) (size align : Z)
  : outcome Z * dstate * world :=
  if size =? 0 then (Ret 0, m, w)
  else match up_alloc w size align with
       | (None, w') => (Throw bad_alloc, m, w')
       | (Some p, w') =>
           if existsb (d_overlaps p size) m then (Throw logic_error, m, w')
           else (Ret p, d_emplace m (mkBlock p size align), w')
       end.

(** Lines 69-118. *)
Definition debug_deallocate (m : dstate) (w : world) (p size align : Z)
  : outcome unit * dstate * world :=
  if p =? 0 then (Ret tt, m, w)
  else match d_find m p with
       | None => (Throw logic_error, m, w)
       | Some b =>
           if negb (bsize b =? size) || negb (balign b =? align)
           then (Throw logic_error, m, w)
           else (Ret tt, d_erase m p, up_free w p size align)
       end.

(** Any sequence of calls, also illegal ones; [out] is what the caller observed:
    blocks obtained and not successfully returned. *)
Inductive dop := DAlloc (size align : Z) | DFree (p size align : Z).
Fixpoint debug_run (ops : list dop) (m : dstate) (w : world) (out : list block)
  : dstate * world * list block :=
  match ops with
  | [] => (m, w, out)
  | DAlloc size align :: ops' =>
      match debug_allocate m w size align with
      | (Ret p, m', w') =>
          debug_run ops' m' w' (if size =? 0 then out else mkBlock p size align :: out)
      | (_, m', w') => debug_run ops' m' w' out
      end
  | DFree p size align :: ops' =>
      match debug_deallocate m w p size align with
      | (Ret tt, m', w') =>
          debug_run ops' m' w' (if p =? 0 then out else remove1 (mkBlock p size align) out)
      | (_, m', w') => debug_run ops' m' w' out
      end
  end.
