(** A graph of four resources over two lowest ones. *)
From Verif Require Import Base BaseLemmas Contiguous Forwarding Stack Graph.

(** What was added to a log. *)
Definition tlog_eq_dec (x y : tlog) : {x = y} + {x <> y}.
Proof. repeat decide equality. Defined.
Definition newer (l' l : tlog) : option tlog :=
  let n := firstn (length l' - length l) l' in if tlog_eq_dec l' (n ++ l) then Some n else None.
(** The calls are repeated, oldest first; the answers must be those recorded. *)
Fixpoint greplay (k : nat) (N : node) (calls : tlog) (s : nstate N) (w : mworld) (out : tlog) : option (nstate N * mworld * tlog) :=
  match calls with
  | [] => Some (s, w, out)
  | (j, e) :: calls' =>
      if Nat.eqb j k then
        match e with
        | UAlloc size align x =>
            let '(r, s', w') := n_alloc N s w size align in
            match newer (mlog w') (mlog w), r, x with
            | Some n, Ret p, Some q => if p =? q then greplay k N calls' s' w' (n ++ out) else None
            | Some n, Throw bad_alloc, None => greplay k N calls' s' w' (n ++ out)
            | _, _, _ => None
            end
        | UFree p size align =>
            let '(r, s', w') := n_free N s w p size align in
            match newer (mlog w') (mlog w), r with
            | Some n, Ret tt => greplay k N calls' s' w' (n ++ out)
            | _, _ => None
            end
        end
      else greplay k N calls' s w ((j, e) :: out)
  end.

(** Answers in the order of the calls (a free takes a place too). *)
Definition tanswers (l : tlog) (n : nat) : option Z :=
  match nth_error l n with Some (_, UAlloc _ _ x) => x | _ => None end.

(** Requests below 100 bytes go to the coalescing resource, which asks the contiguous resource
    and then the second lowest one; the others go to the debug resource. *)
Definition gph : list gnode :=
  [GChoice (fun _ size _ => if size <? 100 then 4%nat else 3%nat); GCoalescing [2%nat; 1%nat]; GOne LDebug 0; GOne (LContiguous 4096) 0].
(** The calls of the user, oldest first, and what they become below each of the resources. *)
Definition gph0 : tlog :=
  [(5%nat, UAlloc 64 8 (Some 65536)); (5%nat, UAlloc 200 16 (Some 131072)); (4%nat, UAlloc 5000 16 (Some 262144));
   (0%nat, UAlloc 32 8 (Some 300000)); (5%nat, UFree 131072 200 16); (4%nat, UAlloc 24 4 (Some 65600))].
Definition gph1 : tlog :=
  [(4%nat, UAlloc 64 8 (Some 65536)); (3%nat, UAlloc 200 16 (Some 131072)); (4%nat, UAlloc 5000 16 (Some 262144));
   (0%nat, UAlloc 32 8 (Some 300000)); (3%nat, UFree 131072 200 16); (4%nat, UAlloc 24 4 (Some 65600))].
Definition gph2 : tlog :=
  [(2%nat, UAlloc 64 8 (Some 65536)); (3%nat, UAlloc 200 16 (Some 131072)); (2%nat, UAlloc 5000 16 None); (1%nat, UAlloc 5000 16 (Some 262144));
   (0%nat, UAlloc 32 8 (Some 300000)); (3%nat, UFree 131072 200 16); (2%nat, UAlloc 24 4 (Some 65600))].
Definition gph3 : tlog :=
  [(2%nat, UAlloc 64 8 (Some 65536)); (0%nat, UAlloc 200 16 (Some 131072)); (2%nat, UAlloc 5000 16 None); (1%nat, UAlloc 5000 16 (Some 262144));
   (0%nat, UAlloc 32 8 (Some 300000)); (0%nat, UFree 131072 200 16); (2%nat, UAlloc 24 4 (Some 65600))].
Definition gph4 : tlog :=
  [(0%nat, UAlloc 4096 16 (Some 65536)); (0%nat, UAlloc 200 16 (Some 131072)); (1%nat, UAlloc 5000 16 (Some 262144));
   (0%nat, UAlloc 32 8 (Some 300000)); (0%nat, UFree 131072 200 16)].

Lemma newer_some l' l n : newer l' l = Some n -> l' = n ++ l.
Proof. unfold newer. destruct (tlog_eq_dec l' _) as [E|]; [|discriminate]. intros [= <-]. exact E. Qed.
Lemma greplay_served k N calls : forall top s w out s' w' out', served k N top s w out ->
  greplay k N calls s w out = Some (s', w', out') -> served k N (rev calls ++ top) s' w' out'.
Proof.
  induction calls as [|[j e] calls IH]; intros top s w out s' w' out' H E; cbn [greplay rev app] in *; [injection E as <- <- <-; exact H|].
  rewrite <- app_assoc. destruct (Nat.eqb_spec j k) as [->|NE]; [|eapply IH; [|exact E]; apply served_other; assumption].
  destruct e as [size align x|p size align].
  - destruct (n_alloc N s w size align) as [[r s1] w1] eqn:EA. destruct (newer (mlog w1) (mlog w)) as [n|] eqn:EN; [|discriminate].
    apply newer_some in EN. destruct r as [p|[]|]; destruct x as [q|]; try discriminate.
    + destruct (Z.eqb_spec p q) as [->|]; [|discriminate]. eapply IH; [|exact E]. eapply served_alloc; eauto.
    + eapply IH; [|exact E]. eapply served_throw; eauto.
  - destruct (n_free N s w p size align) as [[r s1] w1] eqn:EA. destruct (newer (mlog w1) (mlog w)) as [n|] eqn:EN; [|discriminate].
    apply newer_some in EN. destruct r as [[]|e|]; try discriminate. eapply IH; [|exact E]. eapply served_free; eauto.
Qed.
Lemma greplay_node k N calls s0 w0 out : n_init N s0 w0 ->
  option_map (fun x => snd x) (greplay k N calls s0 w0 (mlog w0)) = Some out ->
  exists s w, served k N (rev calls) s w out.
Proof.
  intros H E. destruct (greplay k N calls s0 w0 (mlog w0)) as [[[s w] o]|] eqn:EG; [|discriminate]. injection E as ->.
  exists s, w. rewrite <- (app_nil_r (rev calls)). eapply greplay_served; [apply served_init; exact H|exact EG].
Qed.
(** And then destroyed. *)
Lemma greplay_destroyed k N calls s0 w0 out n : n_init N s0 w0 ->
  option_map (fun x => (snd x, newer (mlog (n_destroy N (fst (fst x)) (snd (fst x)))) (mlog (snd (fst x))))) (greplay k N calls s0 w0 (mlog w0)) = Some (out, Some n) ->
  exists s w, served k N (rev calls) s w out /\ mlog (n_destroy N s w) = n ++ mlog w.
Proof.
  intros H E. destruct (greplay k N calls s0 w0 (mlog w0)) as [[[s w] o]|] eqn:EG; [|discriminate]. cbn [option_map fst snd] in E.
  injection E as -> E. exists s, w. split; [|apply newer_some; exact E].
  rewrite <- (app_nil_r (rev calls)). eapply greplay_served; [apply served_init; exact H|exact EG].
Qed.

(** What each resource is answered. *)
Definition gorc5 := tanswers [(4%nat, UAlloc 64 8 (Some 65536)); (3%nat, UAlloc 200 16 (Some 131072))].
Definition gorc4 := tanswers [(2%nat, UAlloc 64 8 (Some 65536)); (2%nat, UAlloc 5000 16 None); (1%nat, UAlloc 5000 16 (Some 262144)); (2%nat, UAlloc 24 4 (Some 65600))].
Definition gorc3 := tanswers [(0%nat, UAlloc 200 16 (Some 131072))].
Definition gorc2 := tanswers [(0%nat, UAlloc 4096 16 (Some 65536))].
Lemma gph_runs : graph_runs 2 (map gnode_node gph) (rev gph0) (rev gph4).
Proof.
  cbn [map gph gnode_node graph_runs length Nat.add layer_res].
  assert (S5 : exists s w, served 5 (choice_node (fun _ size _ => if size <? 100 then 4%nat else 3%nat)) (rev gph0) s w (rev gph1)).
  { apply (greplay_node 5 (choice_node (fun _ size _ => if size <? 100 then 4%nat else 3%nat)) _ [] (mkMWorld [] gorc5)); [split; reflexivity|vm_compute; reflexivity]. }
  assert (S4 : exists s w, served 4 (coalescing_node [2%nat; 1%nat]) (rev gph1) s w (rev gph2)).
  { apply (greplay_node 4 (coalescing_node [2%nat; 1%nat]) _ [] (mkMWorld [] gorc4)); [split; reflexivity|vm_compute; reflexivity]. }
  assert (S3 : exists s w, served 3 (one_node debug_res 0) (rev gph2) s w (rev gph3)).
  { apply (greplay_node 3 (one_node debug_res 0) _ [] (tagged 0 (mkWorld [] gorc3))); [eexists; split; [reflexivity|split; reflexivity]|vm_compute; reflexivity]. }
  assert (S2 : exists s w, served 2 (one_node (contiguous_res 4096) 0) (rev gph3) s w (rev gph4)).
  { apply (greplay_node 2 (one_node (contiguous_res 4096) 0) _ (mkC 4096 65536 65536) (tagged 0 (mkWorld [UAlloc 4096 16 (Some 65536)] gorc2))).
    - eexists. split; [reflexivity|]. exists (mkWorld [] gorc2). split; reflexivity.
    - vm_compute. reflexivity. }
  destruct S5 as (s5 & w5 & S5), S4 as (s4 & w4 & S4), S3 as (s3 & w3 & S3), S2 as (s2 & w2 & S2).
  exists s5, w5, (rev gph1). split; [exact S5|]. exists s4, w4, (rev gph2). split; [exact S4|].
  exists s3, w3, (rev gph3). split; [exact S3|]. exists s2, w2, (rev gph4). split; [exact S2|reflexivity].
Qed.
(** The remaining blocks are given back, and the resources destroyed. *)
Definition gphd : tlog := [(5%nat, UFree 65536 64 8); (0%nat, UFree 300000 32 8); (4%nat, UFree 262144 5000 16); (4%nat, UFree 65600 24 4)].
Definition gphd1 : tlog := [(4%nat, UFree 65536 64 8); (0%nat, UFree 300000 32 8); (4%nat, UFree 262144 5000 16); (4%nat, UFree 65600 24 4)].
Definition gphd2 : tlog := [(2%nat, UFree 65536 64 8); (0%nat, UFree 300000 32 8); (1%nat, UFree 262144 5000 16); (2%nat, UFree 65600 24 4)].
Definition gphd4 : tlog := [(0%nat, UFree 300000 32 8); (1%nat, UFree 262144 5000 16)].
Lemma gph_destroyed : graph_destroyed 2 (map gnode_node gph) (rev (gph0 ++ gphd)) (rev (gph4 ++ gphd4 ++ [(0%nat, UFree 65536 4096 16)])).
Proof.
  cbn [map gph gnode_node graph_destroyed length Nat.add layer_res].
  assert (S5 : exists s w, served 5 (choice_node (fun _ size _ => if size <? 100 then 4%nat else 3%nat)) (rev (gph0 ++ gphd)) s w (rev (gph1 ++ gphd1)) /\ mlog w = [] ++ mlog w).
  { apply (greplay_destroyed 5 (choice_node (fun _ size _ => if size <? 100 then 4%nat else 3%nat)) _ [] (mkMWorld [] gorc5)); [split; reflexivity|vm_compute; reflexivity]. }
  assert (S4 : exists s w, served 4 (coalescing_node [2%nat; 1%nat]) (rev (gph1 ++ gphd1)) s w (rev (gph2 ++ gphd2)) /\ mlog w = [] ++ mlog w).
  { apply (greplay_destroyed 4 (coalescing_node [2%nat; 1%nat]) _ [] (mkMWorld [] gorc4)); [split; reflexivity|vm_compute; reflexivity]. }
  assert (S3 : exists s w, served 3 (one_node debug_res 0) (rev (gph2 ++ gphd2)) s w (rev (gph3 ++ gphd2)) /\ mlog (n_destroy (one_node debug_res 0) s w) = [] ++ mlog w).
  { apply (greplay_destroyed 3 (one_node debug_res 0) _ [] (tagged 0 (mkWorld [] gorc3))); [eexists; split; [reflexivity|split; reflexivity]|vm_compute; reflexivity]. }
  assert (S2 : exists s w, served 2 (one_node (contiguous_res 4096) 0) (rev (gph3 ++ gphd2)) s w (rev (gph4 ++ gphd4)) /\
    mlog (n_destroy (one_node (contiguous_res 4096) 0) s w) = [(0%nat, UFree 65536 4096 16)] ++ mlog w).
  { apply (greplay_destroyed 2 (one_node (contiguous_res 4096) 0) _ (mkC 4096 65536 65536) (tagged 0 (mkWorld [UAlloc 4096 16 (Some 65536)] gorc2))).
    - eexists. split; [reflexivity|]. exists (mkWorld [] gorc2). split; reflexivity.
    - vm_compute. reflexivity. }
  destruct S5 as (s5 & w5 & S5 & D5), S4 as (s4 & w4 & S4 & D4), S3 as (s3 & w3 & S3 & D3), S2 as (s2 & w2 & S2 & D2).
  exists s5, w5, (rev (gph1 ++ gphd1)), []. split; [exact S5|]. split; [exact D5|]. exists s4, w4, (rev (gph2 ++ gphd2)), []. split; [exact S4|]. split; [exact D4|].
  exists s3, w3, (rev (gph3 ++ gphd2)), []. split; [exact S3|]. split; [exact D3|]. exists s2, w2, (rev (gph4 ++ gphd4)), [(0%nat, UFree 65536 4096 16)]. split; [exact S2|]. split; [exact D2|].
  reflexivity.
Qed.
