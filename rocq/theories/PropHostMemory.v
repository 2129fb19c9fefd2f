(** C149 and C150: the memory resources and the scalars of edm::host. *)
From Verif Require Import Base HostMemory HostMemoryProofs.
From Coq Require Import ZArith List Bool Arith Lia.
Import ListNotations.

(** REFUTED: the copy of a container uses the default resource, while its resource() is that of
    the original; a container that is assigned to keeps using its resource, while its resource() is
    now the one of the other container. *)
Theorem C149_refuted :
  exec [New 5 1000 [KVec false; KJag]; Resize false 0 1; CopyFrom 0] =
    [mkHost 5 [VVec (mkVec 5 [0%Z]); VJag (mkVec 5 [mkVec 5 []])]; mkHost 5 [VVec (mkVec 0 [0%Z]); VJag (mkVec 0 [mkVec 0 []])]] /\
  exec [New 5 1000 [KVec false]; New 6 2000 [KVec false]; Change false 1 0 (PushBack 7); Assign false 0 1] =
    [mkHost 6 [VVec (mkVec 5 [7%Z])]; mkHost 6 [VVec (mkVec 6 [7%Z])]] /\
  exec [New 5 1000 [KVec false]; New 6 2000 [KVec false]; Change false 1 0 (PushBack 7); AssignMove false 0 1] =
    [mkHost 6 [VVec (mkVec 5 [7%Z])]; mkHost 6 [VVec (mkVec 6 [])]].
Proof. repeat split. Qed.
Print Assumptions C149_refuted.

(** In general: copies of containers that do not use the default resource are wrong for all variables,
    and so are assignments between containers with different resources. *)
Theorem C149_copy : forall l i h x, nth_error l i = Some h -> In x (h_vars h) -> h_res h <> 0%nat ->
  exists h' y, nth_error (step l (CopyFrom i)) (length l) = Some h' /\ h_res h' = h_res h /\ In y (h_vars h') /\
    match y with VScalar v => vres v = 0%nat | VVec v => vres v = 0%nat | VJag v => vres v = 0%nat end.
Proof. intros l i h x N I D. destruct (resource_copy l i h x N I D) as (h' & y & A & B & C & E). exists h', y. repeat split; auto. destruct y; exact E. Qed.
Print Assumptions C149_copy.
Theorem C149_assign : forall (move : bool) re l i j h s, i <> j -> nth_error l i = Some h -> nth_error l j = Some s -> length (h_vars h) = length (h_vars s) ->
  Forall (fun x => match x with VScalar v => vres v | VVec v => vres v | VJag v => vres v end = h_res h) (h_vars h) ->
  exists h', nth_error (step l (if move then AssignMove re i j else Assign re i j)) i = Some h' /\ h_res h' = h_res s /\
    length (h_vars h') = length (h_vars h) /\ Forall (fun x => match x with VScalar v => vres v | VVec v => vres v | VJag v => vres v end = h_res h) (h_vars h').
Proof.
  intros move re l i j h s D Nh Ns L C. destruct (resource_assign move re l i j h s D Nh Ns L C) as (h' & A & B & E & F).
  exists h'. repeat split; auto. apply Forall_forall. intros y I. apply F in I. destruct y; exact I.
Qed.
Print Assumptions C149_assign.

(** The property holds if containers are copied only from the default resource and assigned only to
    containers with the same resource, and if pointers to resources do not convert to the elements. *)
Theorem C149_resource_partial : forall cs,
  (forall pre c post, cs = pre ++ c :: post ->
     match c with
     | New _ _ ks => forall k, In k ks -> match k with KScalar ptr int => ptr && int = false | KVec ptr => ptr = false | KJag => True end
     | CopyFrom i => forall h, nth_error (exec pre) i = Some h -> h_res h = 0%nat
     | Assign _ i j | AssignMove _ i j => forall h s, nth_error (exec pre) i = Some h -> nth_error (exec pre) j = Some s -> h_res h = h_res s
     | _ => True
     end) ->
  Forall (fun h => Forall (fun x => match x with VScalar v => vres v | VVec v => vres v | VJag v => vres v end = h_res h) (h_vars h)) (exec cs).
Proof. exact resource_thm. Qed.
Print Assumptions C149_resource_partial.

(** Whatever is done, the inner vectors of a jagged vector use the resource of the outer one. *)
Theorem C149_inner : forall cs, Forall (fun h => Forall (fun x => match x with VJag v => Forall (fun w => vres w = vres v) (velems v) | _ => True end) (h_vars h)) (exec cs).
Proof. exact inner_thm. Qed.
Print Assumptions C149_inner.

(** Copies, moves, assignments and resizing have the right values in spite of the different resources. *)
Theorem C149_values :
  let contents x := match x with VScalar v => [velems v] | VVec v => [velems v] | VJag v => map velems (velems v) end in
  (forall x, contents (var_copy x) = contents x /\ contents (fst (var_move x)) = contents x) /\
  (forall re d s, match d, s with VScalar _, VScalar _ | VVec _, VVec _ | VJag _, VJag _ => True | _, _ => False end ->
     contents (var_assign re d s) = contents s /\ contents (fst (var_assign_move re d s)) = contents s) /\
  (forall re n x, contents (var_resize re n x) =
     match x with
     | VScalar v => [velems v]
     | VVec v => [firstn n (velems v) ++ repeat 0%Z (n - length (velems v))]
     | VJag v => firstn n (map velems (velems v)) ++ repeat [] (n - length (velems v))
     end).
Proof. exact (conj copy_contents (conj assign_contents resize_contents)). Qed.
Print Assumptions C149_values.

(** Containers with the same resource, of which one is moved and one assigned. *)
Example C149_ex :
  (let cs := [New 5 1000 [KScalar false false; KVec false; KJag]; Resize true 0 2; Change false 0 2 (PushTo 1 9); MoveFrom 0; New 5 1000 [KScalar false false; KVec false; KJag]; Assign true 2 1] in
   nth_error (exec cs) 2 = Some (mkHost 5 [VScalar (mkVec 5 [0%Z]); VVec (mkVec 5 [0%Z; 0%Z]); VJag (mkVec 5 [mkVec 5 []; mkVec 5 [9%Z]])]) /\
   forall pre c post, cs = pre ++ c :: post ->
     match c with
     | New _ _ ks => forall k, In k ks -> match k with KScalar ptr int => ptr && int = false | KVec ptr => ptr = false | KJag => True end
     | CopyFrom i => forall h, nth_error (exec pre) i = Some h -> h_res h = 0%nat
     | Assign _ i j | AssignMove _ i j => forall h s, nth_error (exec pre) i = Some h -> nth_error (exec pre) j = Some s -> h_res h = h_res s
     | _ => True
     end).
Proof.
  split; [reflexivity|]. intros pre c post E.
  destruct pre as [|c1 [|c2 [|c3 [|c4 [|c5 [|c6 pre]]]]]]; cbn [app] in E; injection E; intros; subst; auto; try (destruct pre; discriminate).
  - intros k X; destruct X as [<-|[<-|[<-|[]]]]; cbn; auto.
  - intros k X; destruct X as [<-|[<-|[<-|[]]]]; cbn; auto.
  - intros h s X Y. vm_compute in X; vm_compute in Y; inversion X; inversion Y; reflexivity.
Qed.

(** C150, REFUTED: scalars of a container that was moved from, by construction or by assignment, have no
    value, not even after resizing: access to them is undefined.  And a new container has an element in
    each vector whose element type is constructible from pointers. *)
Theorem C150_refuted : forall r addr re n,
  (exists h x, nth_error (exec [New r addr [KScalar false false; KVec false]; MoveFrom 0; Resize re 0 n]) 0 = Some h /\ nth_error (h_vars h) 0 = Some x /\ get_scalar x = UB) /\
  (exists h x, nth_error (exec [New r addr [KScalar false false]; New r addr [KScalar false false]; AssignMove re 0 1]) 1 = Some h /\ nth_error (h_vars h) 0 = Some x /\ get_scalar x = UB) /\
  exec [New r addr [KVec true]] = [mkHost r [VVec (mkVec 0 [addr])]].
Proof.
  intros r addr re n. split; [|split].
  - eexists. eexists. split; [reflexivity|]. split; reflexivity.
  - eexists. eexists. split; [reflexivity|]. split; reflexivity.
  - reflexivity.
Qed.
Print Assumptions C150_refuted.

(** Without moves, every scalar has exactly one value. *)
Theorem C150_scalar_partial : forall cs,
  (forall c, In c cs ->
     match c with
     | New _ _ ks => forall k, In k ks -> match k with KScalar ptr int => ptr && int = false | _ => True end
     | MoveFrom _ | AssignMove _ _ _ => False
     | _ => True
     end) ->
  Forall (fun h => Forall (fun x => match x with VScalar v => length (velems v) = 1%nat /\ exists z, get_scalar x = Ret z | _ => True end) (h_vars h)) (exec cs).
Proof.
  intros cs H. eapply Forall_impl; [|exact (one_thm cs H)]. intros h Hh. eapply Forall_impl; [|exact Hh]. intros [v|v|v] Hv; cbn in *; auto.
  split; [exact Hv|]. destruct (velems v) as [|z l]; [discriminate|]. exists z; reflexivity.
Qed.
Print Assumptions C150_scalar_partial.

(** New containers: one value-initialised element for a scalar, none for vectors. *)
Theorem C150_new_partial : forall r addr ks k,
  (forall x, In x ks -> match x with KScalar ptr int => ptr && int = false | KVec ptr => ptr = false | KJag => True end) ->
  nth_error (h_vars (host_new r addr ks)) k =
    match nth_error ks k with
    | Some (KScalar _ _) => Some (VScalar (mkVec r [0%Z]))
    | Some (KVec _) => Some (VVec (mkVec r []))
    | Some KJag => Some (VJag (mkVec r []))
    | None => None
    end.
Proof.
  intros r addr ks k H. cbn. rewrite nth_error_map. destruct (nth_error ks k) as [x|] eqn:N; [|reflexivity]. apply nth_error_In in N. specialize (H x N).
  destruct x as [p q|p|]; cbn; rewrite ?H; reflexivity.
Qed.
Print Assumptions C150_new_partial.
Example C150_ex : exec [New 5 1000 [KScalar false false; KVec false]; CopyFrom 0; Resize true 1 2; Assign false 0 1] =
  [mkHost 5 [VScalar (mkVec 5 [0%Z]); VVec (mkVec 5 [0%Z; 0%Z])]; mkHost 5 [VScalar (mkVec 0 [0%Z]); VVec (mkVec 0 [0%Z; 0%Z])]].
Proof. reflexivity. Qed.
