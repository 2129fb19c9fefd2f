(** Memory resources that use each other: any acyclic graph of resources.

    Sources: as for Stack.v, and choice_memory_resource and coalescing_memory_resource, which
    have several upstream resources (core/src/memory/details/choice_memory_resource_impl.cpp
    lines 21-67, coalescing_memory_resource_impl.cpp lines 21-81; models: Forwarding.v).

    The resources are numbered.  The lowest ones, 0 to B-1, are not modelled; every other one
    uses resources with lower numbers.  Several resources may use the same one, and the user
    may call any of them.  A log says for each call which resource was called.

    Simplifications: as for Stack.v; all resources are constructed before the first call of
    the user, and destroyed after the last one. *)
From Verif Require Import Base Forwarding Stack.

(** A memory resource with any number of upstream resources (compare [resource]). *)
Record node := mkNode {
  nstate : Type;
  n_init : nstate -> mworld -> Prop;
  n_alloc : nstate -> mworld -> Z -> Z -> outcome Z * nstate * mworld;
  n_free : nstate -> mworld -> Z -> Z -> Z -> outcome unit * nstate * mworld;
  n_destroy : nstate -> mworld -> mworld }.

Definition tlog := list (nat * uevent).

(** A resource with one upstream, which has the number [u]. *)
Definition plain (w : mworld) : world := mkWorld (map snd (mlog w)) (morc w).
Definition tagged (u : nat) (w : world) : mworld := mkMWorld (map (pair u) (ulog w)) (uorc w).
Definition one_node (R : resource) (u : nat) : node :=
  mkNode (rstate R)
    (fun s w => exists w0, w = tagged u w0 /\ r_init R s w0)
    (fun s w size align => let '(r, s', w') := r_alloc R s (plain w) size align in (r, s', tagged u w'))
    (fun s w p size align => let '(r, s', w') := r_free R s (plain w) p size align in (r, s', tagged u w'))
    (fun s w => tagged u (r_destroy R s (plain w))).

(** Both keep a map of the blocks; their destructors do nothing. *)
Definition choice_node (dec : nat -> Z -> Z -> nat) : node :=
  mkNode amap (fun m w => m = [] /\ mlog w = []) (choice_allocate dec) tracked_deallocate (fun _ w => w).
Definition coalescing_node (ups : list nat) : node :=
  mkNode amap (fun m w => m = [] /\ mlog w = []) (coalescing_allocate ups) tracked_deallocate (fun _ w => w).

(** [served k N top s w out]: the calls [top], some of which are made to the node [N] with the
    number [k], bring this node to the state [s] with its own upstream calls [w]; [out] are the
    calls of [top] with those to the node replaced by the ones that the node makes for them. *)
Inductive served (k : nat) (N : node) : tlog -> nstate N -> mworld -> tlog -> Prop :=
| served_init s w : n_init N s w -> served k N [] s w (mlog w)
| served_other top s w out j e :
    served k N top s w out -> j <> k -> served k N ((j, e) :: top) s w ((j, e) :: out)
| served_alloc top s w out size align p s' w' n :
    served k N top s w out -> n_alloc N s w size align = (Ret p, s', w') -> mlog w' = n ++ mlog w ->
    served k N ((k, UAlloc size align (Some p)) :: top) s' w' (n ++ out)
| served_throw top s w out size align s' w' n :
    served k N top s w out -> n_alloc N s w size align = (Throw bad_alloc, s', w') -> mlog w' = n ++ mlog w ->
    served k N ((k, UAlloc size align None) :: top) s' w' (n ++ out)
| served_free top s w out p size align s' w' n :
    served k N top s w out -> n_free N s w p size align = (Ret tt, s', w') -> mlog w' = n ++ mlog w ->
    served k N ((k, UFree p size align) :: top) s' w' (n ++ out).

(** The nodes of a graph, the one with the highest number first: the calls [top] of the user
    become the calls [bottom] to the lowest resources. *)
Fixpoint graph_runs (B : nat) (ns : list node) (top bottom : tlog) : Prop :=
  match ns with
  | [] => top = bottom
  | N :: ns' => exists s w mid, served (B + length ns') N top s w mid /\ graph_runs B ns' mid bottom
  end.

(** The same when the nodes have been destroyed afterwards, in the order of their numbers
    from the highest to the lowest (the reverse of the order of construction). *)
Fixpoint graph_destroyed (B : nat) (ns : list node) (top bottom : tlog) : Prop :=
  match ns with
  | [] => top = bottom
  | N :: ns' => exists s w mid n, served (B + length ns') N top s w mid /\ mlog (n_destroy N s w) = n ++ mlog w /\
                                  graph_destroyed B ns' (n ++ mid) bottom
  end.

(** What a graph can be made of. *)
Inductive gnode :=
| GOne (l : layer) (upstream : nat)
| GChoice (dec : nat -> Z -> Z -> nat)
| GCoalescing (upstreams : list nat).
Definition gnode_node (g : gnode) : node :=
  match g with
  | GOne l u => one_node (layer_res l) u
  | GChoice dec => choice_node dec
  | GCoalescing ups => coalescing_node ups
  end.
