(** A stack of four resources. *)
From Verif Require Import Base BaseLemmas IntMath Contiguous Pool Buddy Forwarding Stack.

(** The calls are repeated, oldest first; the answers must be those recorded. *)
Fixpoint replay (R : resource) (calls : list uevent) (s : rstate R) (w : world) : option (rstate R * world) :=
  match calls with
  | [] => Some (s, w)
  | UAlloc size align x :: calls' =>
      match r_alloc R s w size align, x with
      | (Ret p, s', w'), Some q => if p =? q then replay R calls' s' w' else None
      | (Throw bad_alloc, s', w'), None => replay R calls' s' w'
      | _, _ => None
      end
  | UFree p size align :: calls' =>
      match r_free R s w p size align with
      | (Ret tt, s', w') => replay R calls' s' w'
      | _ => None
      end
  end.

Lemma replay_runs R calls : forall l s w s' w', runs R l s w -> replay R calls s w = Some (s', w') ->
  runs R (rev calls ++ l) s' w'.
Proof.
  induction calls as [|[size align x|p size align] calls IH]; intros l s w s' w' H E; cbn [replay rev app] in *.
  - injection E as <- <-. exact H.
  - rewrite <- app_assoc. destruct (r_alloc R s w size align) as [[[p|[]|] s1] w1] eqn:EA; destruct x as [q|]; try discriminate.
    + destruct (Z.eqb_spec p q) as [->|]; [|discriminate]. eapply IH; [|exact E]. eapply runs_alloc; eauto.
    + eapply IH; [|exact E]. eapply runs_throw; eauto.
  - rewrite <- app_assoc. destruct (r_free R s w p size align) as [[[[]|e|] s1] w1] eqn:EA; try discriminate.
    eapply IH; [|exact E]. eapply runs_free; eauto.
Qed.

(** Answers in the order of the calls (a free takes a place too). *)
Definition answers (l : list uevent) (n : nat) : option Z :=
  match nth_error l n with Some (UAlloc _ _ x) => x | _ => None end.

Definition stk : list layer := [LPool default_options; LDebug; LBinaryPage; LContiguous (2 ^ 22)].
Definition stk_base : Z := 2 ^ 40.
(** Calls of each layer, oldest first; the last list is what the host is asked. *)
Definition stk0 : list uevent :=
  [UAlloc 100 16 (Some (stk_base + 1920)); UAlloc (2 ^ 20 + 1) 16 (Some (stk_base + 2 ^ 19)); UAlloc 200 8 (Some (stk_base + 7936));
   UFree (stk_base + 1920) 100 16; UAlloc (3 * 2 ^ 20) 16 None; UAlloc 120 4 (Some (stk_base + 1920))].
Definition stk1 : list uevent :=
  [UAlloc 2048 16 (Some stk_base); UAlloc (2 ^ 20 + 1) 16 (Some (stk_base + 2 ^ 19)); UAlloc 4096 16 (Some (stk_base + 4096));
   UAlloc (3 * 2 ^ 20) 16 None].
Definition stk2 : list uevent := stk1.
Definition stk3 : list uevent :=
  [UAlloc (2 ^ 19) 16 (Some stk_base); UAlloc (2 ^ 21) 16 (Some (stk_base + 2 ^ 19)); UAlloc (2 ^ 22) 16 None].
Definition stk4 : list uevent := [UAlloc (2 ^ 22) 16 (Some stk_base)].


Definition stk_pool0 : Z * pst :=
  match pool_construct default_options with Ret s => s | _ => (0, mkPool [] [] [] []) end.

Lemma stk_layer R (calls : list uevent) s0 w0 s w : r_init R s0 w0 -> replay R calls s0 w0 = Some (s, w) ->
  runs R (rev calls) s w.
Proof. intros H E. rewrite <- (app_nil_r (rev calls)). eapply replay_runs; [apply runs_init; exact H|exact E]. Qed.

Lemma replay_layer R calls s0 w0 : r_init R s0 w0 -> forall l,
  option_map (fun x => ulog (snd x)) (replay R calls s0 w0) = Some l ->
  exists s w, runs R (rev calls) s w /\ ulog w = l.
Proof.
  intros H l E. destruct (replay R calls s0 w0) as [[s w]|] eqn:ER; [|discriminate]. injection E as <-.
  exists s, w. split; [eapply stk_layer; eauto|reflexivity].
Qed.

Lemma stk_stacked : stacked (map layer_res stk) (rev stk0) (rev stk4).
Proof.
  cbn [map stk layer_res stacked].
  destruct (replay_layer (pool_res default_options) stk0 stk_pool0 (mkWorld [] (answers stk1))) with (l := rev stk1)
    as (s1 & w1 & R1 & E1); [split; reflexivity|vm_compute; reflexivity|].
  exists s1, w1. split; [exact R1|]. rewrite E1.
  destruct (replay_layer debug_res stk1 [] (mkWorld [] (answers stk2))) with (l := rev stk2)
    as (s2 & w2 & R2 & E2); [split; reflexivity|vm_compute; reflexivity|].
  exists s2, w2. split; [exact R2|]. rewrite E2.
  destruct (replay_layer binary_page_res stk2 init (mkWorld [] (answers stk3))) with (l := rev stk3)
    as (s3 & w3 & R3 & E3); [split; reflexivity|vm_compute; reflexivity|].
  exists s3, w3. split; [exact R3|]. rewrite E3.
  destruct (replay_layer (contiguous_res (2 ^ 22)) stk3 (mkC (2 ^ 22) stk_base stk_base) (mkWorld (rev stk4) (answers stk4))) with (l := rev stk4)
    as (s4 & w4 & R4 & E4); [exists (mkWorld [] (answers stk4)); split; reflexivity|vm_compute; reflexivity|].
  exists s4, w4. split; [exact R4|]. exact E4.
Qed.

(** The blocks are given back and the resources destroyed. *)
Lemma replay_destroyed R calls s0 w0 : r_init R s0 w0 -> forall l,
  option_map (fun x => ulog (r_destroy R (fst x) (snd x))) (replay R calls s0 w0) = Some l ->
  exists s w, runs R (rev calls) s w /\ ulog (r_destroy R s w) = l.
Proof.
  intros H l E. destruct (replay R calls s0 w0) as [[s w]|] eqn:ER; [|discriminate]. injection E as <-.
  exists s, w. split; [eapply stk_layer; eauto|reflexivity].
Qed.

Definition stk0d : list uevent :=
  stk0 ++ [UFree (stk_base + 2 ^ 19) (2 ^ 20 + 1) 16; UFree (stk_base + 1920) 120 4; UFree (stk_base + 7936) 200 8].
Definition stk1d : list uevent :=
  stk1 ++ [UFree stk_base 2048 16; UFree (stk_base + 4096) 4096 16; UFree (stk_base + 2 ^ 19) (2 ^ 20 + 1) 16].
Definition stk2d : list uevent := stk1d.
Definition stk3d : list uevent := stk3 ++ [UFree stk_base (2 ^ 19) 16; UFree (stk_base + 2 ^ 19) (2 ^ 21) 16].
Definition stk4d : list uevent := stk4 ++ [UFree stk_base (2 ^ 22) 16].

Lemma stk_destroyed : destroyed (map layer_res stk) (rev stk0d) (rev stk4d).
Proof.
  cbn [map stk layer_res destroyed].
  destruct (replay_destroyed (pool_res default_options) stk0d stk_pool0 (mkWorld [] (answers stk1))) with (l := rev stk1d)
    as (s1 & w1 & R1 & E1); [split; reflexivity|vm_compute; reflexivity|].
  exists s1, w1. split; [exact R1|]. rewrite E1.
  destruct (replay_destroyed debug_res stk1d [] (mkWorld [] (answers stk2))) with (l := rev stk2d)
    as (s2 & w2 & R2 & E2); [split; reflexivity|vm_compute; reflexivity|].
  exists s2, w2. split; [exact R2|]. rewrite E2.
  destruct (replay_destroyed binary_page_res stk2d init (mkWorld [] (answers stk3))) with (l := rev stk3d)
    as (s3 & w3 & R3 & E3); [split; reflexivity|vm_compute; reflexivity|].
  exists s3, w3. split; [exact R3|]. rewrite E3.
  destruct (replay_destroyed (contiguous_res (2 ^ 22)) stk3d (mkC (2 ^ 22) stk_base stk_base) (mkWorld (rev stk4) (answers stk4))) with (l := rev stk4d)
    as (s4 & w4 & R4 & E4); [exists (mkWorld [] (answers stk4)); split; reflexivity|vm_compute; reflexivity|].
  exists s4, w4. split; [exact R4|]. exact E4.
Qed.
