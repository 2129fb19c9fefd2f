(** Theorems about comparing memory resources. *)
From Verif Require Import Base ResEqual ResEqualProofs.

(** C122 is refuted: is_equal is not symmetric. *)
Theorem C122_refuted :
  exists a b, objects [a; b] /\ mr_is_equal a b = true /\ mr_is_equal b a = false.
Proof.
  exists (MSync 1 (MHost 2)), (MHost 3). repeat split; auto.
  intros r s x y Hr Hs Hx Hy E. simpl in Hr, Hs.
  destruct Hr as [<-|[<-|[]]]; destruct Hs as [<-|[<-|[]]]; simpl in Hx, Hy;
    repeat match goal with H : _ \/ _ |- _ => destruct H end; subst; simpl in E; try contradiction; try discriminate; reflexivity.
Qed.
Print Assumptions C122_refuted.

(** What holds of it. *)
Theorem C122_preorder_partial :
  (forall r, mr_is_equal r r = true) /\
  (forall a b c, objects [a; b; c] -> mr_is_equal a b = true -> mr_is_equal b c = true -> mr_is_equal a c = true) /\
  (forall a b, objects [a; b] -> mr_is_equal a b = true -> (mr_is_equal b a = true <-> layers a = layers b)).
Proof. split; [exact mr_refl|split; [exact mr_trans|exact equal_sym_layers]]. Qed.
Print Assumptions C122_preorder_partial.

(** Exactly the resources are equal that end in the same heap, with the same identity
    layers and no synchronized layer that the first one does not have. *)
Theorem C122_exact_partial : forall a b, objects [a; b] ->
  (mr_is_equal a b = true <-> fewer (layers a) (layers b) /\ same_end (innermost a) (innermost b)).
Proof. exact equal_exact. Qed.
Print Assumptions C122_exact_partial.

(** Two wrappers of one pool. *)
Definition pool122 := MOwn 5.
Definition wrap122 := MSync 6 (MIdentity 7 (MSync 8 pool122)).
Definition wrap122' := MIdentity 9 pool122.
Example C122_example : objects [wrap122; wrap122'; wrap122'] /\
  mr_is_equal wrap122 wrap122' = true /\ mr_is_equal wrap122' wrap122 = false /\
  mr_is_equal (MSync 10 wrap122') wrap122' = true.
Proof.
  repeat split; auto. intros r s x y Hr Hs Hx Hy E. simpl in Hr, Hs.
  assert (Hin : forall z t, wrap122 = t \/ wrap122' = t \/ wrap122' = t \/ False -> In z (below t) ->
            In z [wrap122; MIdentity 7 (MSync 8 pool122); MSync 8 pool122; pool122; wrap122']).
  { intros z t [<-|[<-|[<-|[]]]] Hz; simpl in Hz |- *; tauto. }
  pose proof (Hin _ _ Hr Hx) as Hx'. pose proof (Hin _ _ Hs Hy) as Hy'. clear - Hx' Hy' E. simpl in Hx', Hy'.
  repeat match goal with H : _ \/ _ |- _ => destruct H end; subst; simpl in E; try contradiction; try discriminate; reflexivity.
Qed.

(** C123: memory taken from a resource may be given back through one that it calls equal. *)
Theorem C123_exchange : forall a b size align w p w1, objects [a; b] -> mr_is_equal a b = true ->
  mr_allocate a size align w = (Ret p, w1) -> (p = 0 -> size = 0) ->
  (mlog w1 = mlog w /\ p = 0 /\ forall w2, mr_deallocate b p size align w2 = w2) \/
  (exists h, mlog w1 = (h, UAlloc size align (Some p)) :: mlog w /\
     forall w2, mlog (mr_deallocate b p size align w2) = (h, UFree p size align) :: mlog w2).
Proof. exact exchange. Qed.
Print Assumptions C123_exchange.

Example C123_example :
  let w := mkMWorld [] (fun _ => Some 4096) in
  mr_is_equal wrap122 wrap122' = true /\
  mr_allocate wrap122 100 8 w = (Ret 4096, mkMWorld [(6%nat, UAlloc 100 8 (Some 4096))] (fun _ => Some 4096)) /\
  mlog (mr_deallocate wrap122' 4096 100 8 (snd (mr_allocate wrap122 100 8 w))) =
    [(6%nat, UFree 4096 100 8); (6%nat, UAlloc 100 8 (Some 4096))] /\
  mr_allocate wrap122 0 8 w = (Ret 0, w).
Proof. repeat split; reflexivity. Qed.
