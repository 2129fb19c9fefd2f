(** Wrappers around CUDA streams (cuda/src/utils/stream_wrapper.cpp,
    cuda/src/utils/opaque_stream.cpp) and SYCL queues
    (sycl/src/utils/sycl/queue_wrapper.sycl, opaque_queue.hpp). *)
From Verif Require Import Base.

(** Streams (or queue objects): made by the library, or by somebody else. *)
Inductive handle := Lib (i : nat) | Ext (n : nat).
(** A wrapper: the bare pointer, and the object that it manages. *)
Record wrap := mkW { w_ptr : handle; w_managed : option nat }.
(** What a program does with wrappers, which are numbered in the order of construction:
    default construction (of a queue with the given identity), wrapping a pointer, copy and
    move construction, assignments ([WAssign a b] is [a = b]), destruction. *)
Inductive wop := WNew (q : Z) | WWrap (h : handle) | WCopy (b : nat) | WMove (b : nat) | WAssign (a b : nat) | WMoveAssign (a b : nat) | WDestroy (a : nat).

(** [ws_obj]: the wrappers, [None] if destroyed; [ws_id], [ws_dead]: for each stream (queue object)
    made by the library, its identity, and the number of times that it was destroyed. *)
Record ws := mkWs { ws_obj : list (option wrap); ws_id : list Z; ws_dead : list nat }.
Definition ws_init : ws := mkWs [] [] [].

Definition owns (i : nat) (o : option wrap) : bool :=
  match o with Some (mkW _ (Some j)) => Nat.eqb i j | _ => false end.
Definition owners (i : nat) (l : list (option wrap)) : nat := length (filter (owns i) l).
Definition managed (o : option wrap) : option nat := match o with Some w => w_managed w | None => None end.
Definition kill (i : nat) (s : ws) : ws :=
  mkWs (ws_obj s) (ws_id s) (upd (ws_dead s) i (S (nth i (ws_dead s) O))).
Definition get_w (s : ws) (a : nat) : option wrap := match nth_error (ws_obj s) a with Some (Some w) => Some w | _ => None end.
Definition set_w (s : ws) (a : nat) (o : option wrap) : ws := mkWs (upd (ws_obj s) a o) (ws_id s) (ws_dead s).
Definition push_w (s : ws) (w : wrap) : ws := mkWs (ws_obj s ++ [Some w]) (ws_id s) (ws_dead s).
Definition new_obj (s : ws) (q : Z) : nat * ws := (length (ws_dead s), mkWs (ws_obj s) (ws_id s ++ [q]) (ws_dead s ++ [O])).

(** ** stream_wrapper
    std::shared_ptr: the stream is destroyed with its last owner. *)
Definition release (old : option nat) (s : ws) : ws :=
  match old with Some i => if Nat.eqb (owners i (ws_obj s)) 0 then kill i s else s | None => s end.
(** Change (or end) wrapper [a]; its former stream is released. *)
Definition put_w (s : ws) (a : nat) (o : option wrap) : ws := release (managed (nth a (ws_obj s) None)) (set_w s a o).

(** Lines 25-81; None if there is no such wrapper. *)
Definition stream_step (o : wop) (s : ws) : option ws :=
  match o with
  | WNew q => let '(i, s1) := new_obj s q in Some (push_w s1 (mkW (Lib i) (Some i)))
  | WWrap h => Some (push_w s (mkW h None))
  | WCopy b => match get_w s b with Some w => Some (push_w s w) | None => None end
  | WMove b =>
    match get_w s b with
    | Some w => Some (set_w (push_w s w) b (Some (mkW (w_ptr w) None)))
    | None => None
    end
  | WAssign a b =>
    match get_w s a, get_w s b with
    | Some _, Some w => Some (if Nat.eqb a b then s else put_w s a (Some w))
    | _, _ => None
    end
  | WMoveAssign a b =>
    match get_w s a, get_w s b with
    | Some _, Some w => Some (if Nat.eqb a b then s else
        let s1 := set_w s b (Some (mkW (w_ptr w) None)) in release (managed (nth a (ws_obj s) None)) (set_w s1 a (Some w)))
    | _, _ => None
    end
  | WDestroy a => match get_w s a with Some _ => Some (put_w s a None) | None => None end
  end.

(** ** queue_wrapper
    std::unique_ptr to an opaque_queue; copies of it have the identity of the original
    (::sycl::queue is a handle). *)
Definition reset (old : option nat) (s : ws) : ws := match old with Some i => kill i s | None => s end.
(** Lines 19-115. *)
Definition queue_step (o : wop) (s : ws) : option ws :=
  match o with
  | WNew q => let '(i, s1) := new_obj s q in Some (push_w s1 (mkW (Lib i) (Some i)))
  | WWrap h => Some (push_w s (mkW h None))
  | WCopy b =>
    match get_w s b with
    | Some (mkW _ (Some j)) => let '(i, s1) := new_obj s (nth j (ws_id s) 0) in Some (push_w s1 (mkW (Lib i) (Some i)))
    | Some (mkW h None) => Some (push_w s (mkW h None))
    | None => None
    end
  | WMove b =>
    match get_w s b with
    | Some w => Some (set_w (push_w s (match w_managed w with Some i => mkW (Lib i) (Some i) | None => w end)) b (Some (mkW (w_ptr w) None)))
    | None => None
    end
  | WAssign a b =>
    match get_w s a, get_w s b with
    | Some wa, Some (mkW h m) =>
      if Nat.eqb a b then Some s
      else match m with
           | Some j => let '(i, s1) := new_obj s (nth j (ws_id s) 0) in Some (set_w (reset (w_managed wa) s1) a (Some (mkW (Lib i) (Some i))))
           | None => Some (set_w s a (Some (mkW h (w_managed wa))))
           end
    | _, _ => None
    end
  | WMoveAssign a b =>
    match get_w s a, get_w s b with
    | Some wa, Some w =>
      if Nat.eqb a b then Some s
      else Some (set_w (set_w (reset (w_managed wa) s) b (Some (mkW (w_ptr w) None))) a
                       (Some (match w_managed w with Some i => mkW (Lib i) (Some i) | None => w end)))
    | _, _ => None
    end
  | WDestroy a => match get_w s a with Some wa => Some (set_w (reset (w_managed wa) s) a None) | None => None end
  end.

Fixpoint wrun (step : wop -> ws -> option ws) (l : list wop) (s : ws) : option ws :=
  match l with [] => Some s | o :: l' => match step o s with Some s' => wrun step l' s' | None => None end end.

(** The identity of the stream (queue) that a pointer denotes: None if it has been
    destroyed.  [ext]: the identities of the foreign ones. *)
Definition denotes (ext : nat -> Z) (s : ws) (h : handle) : option Z :=
  match h with
  | Ext n => Some (ext n)
  | Lib i => match nth_error (ws_id s) i, nth_error (ws_dead s) i with Some q, Some O => Some q | _, _ => None end
  end.
