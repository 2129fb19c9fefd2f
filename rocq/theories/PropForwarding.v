(** Properties C23-C26: choice, coalescing, conditional and debug resources. *)
From Verif Require Import Base BaseLemmas Forwarding ForwardingProofs History.

(** C23: an allocation is one call of the resource picked by the decision
    function, with unchanged arguments and result. *)
Theorem C23_allocate : forall dec m w size align, size <> 0 ->
  exists res w', mlog w' = (dec (length (mlog w)) size align, UAlloc size align res) :: mlog w /\
  match res with
  | Some p => exists m', choice_allocate dec m w size align = (Ret p, m', w')
  | None => choice_allocate dec m w size align = (Throw bad_alloc, m, w')
  end.
Proof. exact choice_allocate_spec. Qed.
Print Assumptions C23_allocate.

(** C23: in every legal history, deallocating a live block is exactly one call of
    the resource that allocated it; the record is exact. *)
Theorem C23_deallocate : forall dec m w live,
  treach (choice_allocate dec) tracked_deallocate m w live -> distinct_ok (mlog w) ->
  (forall r b, In (r, b) live -> exists m' w',
     tracked_deallocate m w (bptr b) (bsize b) (balign b) = (Ret tt, m', w') /\
     mlog w' = (r, UFree (bptr b) (bsize b) (balign b)) :: mlog w) /\
  live = mlive (mlog w) /\ NoDup (map fst m) /\
  (forall p r, In (p, r) m <-> exists b, In (r, b) live /\ bptr b = p).
Proof. exact (fun dec m w live => tracked_deallocate_ok _ m w live (choice_good dec)). Qed.
Print Assumptions C23_deallocate.

(** C24: the first upstream that does not fail serves; nothing is called after it. *)
Theorem C24_allocate : forall ups m w size align, size <> 0 ->
  exists n, (n <= length ups)%nat /\
  (forall i, (i < n)%nat -> morc w (length (mlog w) + i) = None) /\
  let fails := rev (map (fun u => (u, UAlloc size align None)) (firstn n ups)) in
  (n = length ups /\ exists w', mlog w' = fails ++ mlog w /\
     coalescing_allocate ups m w size align = (Throw bad_alloc, m, w')) \/
  (exists u p m' w', nth_error ups n = Some u /\ morc w (length (mlog w) + n) = Some p /\
     mlog w' = (u, UAlloc size align (Some p)) :: fails ++ mlog w /\
     coalescing_allocate ups m w size align = (Ret p, m', w')).
Proof. exact coalescing_allocate_spec. Qed.
Print Assumptions C24_allocate.

Theorem C24_deallocate : forall ups m w live,
  treach (coalescing_allocate ups) tracked_deallocate m w live -> distinct_ok (mlog w) ->
  (forall r b, In (r, b) live -> exists m' w',
     tracked_deallocate m w (bptr b) (bsize b) (balign b) = (Ret tt, m', w') /\
     mlog w' = (r, UFree (bptr b) (bsize b) (balign b)) :: mlog w) /\
  live = mlive (mlog w) /\ NoDup (map fst m) /\
  (forall p r, In (p, r) m <-> exists b, In (r, b) live /\ bptr b = p).
Proof. exact (fun ups m w live => tracked_deallocate_ok _ m w live (coalescing_good ups)). Qed.
Print Assumptions C24_deallocate.

(** C25. *)
Theorem C25_allocate : forall pred n w size align,
  (size > 0 /\ pred n size align = true /\
     conditional_allocate pred n w size align =
       (match fst (up_alloc w size align) with Some p => Ret p | None => Throw bad_alloc end,
        mkWorld (UAlloc size align (fst (up_alloc w size align)) :: ulog w) (uorc w))) \/
  (size > 0 /\ pred n size align = false /\
     conditional_allocate pred n w size align = (Throw bad_alloc, w)) \/
  (size = 0 /\ conditional_allocate pred n w size align = (Ret 0, w)) \/ size < 0.
Proof. exact conditional_spec. Qed.
Print Assumptions C25_allocate.

Theorem C25_deallocate : forall w p size align, p <> 0 ->
  conditional_deallocate w p size align =
    (Ret tt, mkWorld (UFree p size align :: ulog w) (uorc w)).
Proof. exact conditional_free. Qed.
Print Assumptions C25_deallocate.

(** C26: on legal histories the debug resource is indistinguishable from plain
    forwarding. *)
Theorem C26_transparent : forall m w live,
  reach debug_allocate debug_deallocate nonneg [] fresh m w live ->
  (forall size align, 0 <= size ->
     upstream_ok (ulog (snd (identity_allocate w size align))) ->
     exists m', debug_allocate m w size align =
       (fst (identity_allocate w size align), m', snd (identity_allocate w size align))) /\
  (upstream_ok (ulog w) -> forall b, In b live -> exists m',
     debug_deallocate m w (bptr b) (bsize b) (balign b) =
       (fst (identity_deallocate w (bptr b) (bsize b) (balign b)), m',
        snd (identity_deallocate w (bptr b) (bsize b) (balign b)))).
Proof. exact debug_transparent. Qed.
Print Assumptions C26_transparent.

(** C26: after any sequence of calls (also illegal ones, over any upstream),
    exactly the deallocations of blocks that are out pass; all others throw
    without reaching upstream; overlapping allocations are reported. *)
Theorem C26_rejects : forall ops w0 m w out, dops_ok ops ->
  debug_run ops [] w0 [] = (m, w, out) ->
  (forall p size align, p <> 0 -> ~ In (mkBlock p size align) out ->
     debug_deallocate m w p size align = (Throw logic_error, m, w)) /\
  (forall p size align, p <> 0 -> In (mkBlock p size align) out ->
     exists m', debug_deallocate m w p size align = (Ret tt, m', up_free w p size align)) /\
  (forall size align p, 0 < size -> fst (up_alloc w size align) = Some p ->
     let w' := snd (up_alloc w size align) in
     ((exists c, In c out /\ overlap (mkBlock p size align) c) ->
        debug_allocate m w size align = (Throw logic_error, m, w')) /\
     ((forall c, In c out -> ~ overlap (mkBlock p size align) c) ->
        exists m', debug_allocate m w size align = (Ret p, m', w'))) /\
  pairwise_disjoint out.
Proof. exact debug_rejects. Qed.
Print Assumptions C26_rejects.

(** ** Concrete cases *)

(** A decision function that alternates between two resources. *)
Definition ex_dec (n : nat) (size align : Z) : nat := Nat.modulo n 2.
Definition ex_orc (n : nat) : option Z := nth n [Some 64; Some 4096; None; Some 640; Some 8192] None.
Example C23_ex : exists m w live,
  treach (choice_allocate ex_dec) tracked_deallocate m w live /\ distinct_ok (mlog w) /\
  live = [(1%nat, mkBlock 640 7 1); (1%nat, mkBlock 4096 100 8); (0%nat, mkBlock 64 10 8)].
Proof.
  eexists. eexists. eexists. split.
  { eapply (treach_alloc _ _ _ _ _ 7 1);
      [eapply (treach_alloc_throw _ _ _ _ _ 5 1);
        [eapply (treach_alloc _ _ _ _ _ 100 8);
          [eapply (treach_alloc _ _ _ _ _ 10 8);
            [apply (treach_init _ _ (mkMWorld [] ex_orc)); reflexivity|]|]|]|];
    vm_compute; reflexivity. }
  split; [|reflexivity].
  cbn. repeat split; try discriminate; intros c H; repeat destruct H as [<-|H]; try easy.
Qed.

Example C24_ex : exists m w live,
  treach (coalescing_allocate [3; 5; 7]%nat) tracked_deallocate m w live /\ distinct_ok (mlog w) /\
  live = [(5%nat, mkBlock 640 7 1); (3%nat, mkBlock 4096 100 8); (3%nat, mkBlock 64 10 8)].
Proof.
  eexists. eexists. eexists. split.
  { eapply (treach_alloc _ _ _ _ _ 7 1);
      [eapply (treach_alloc _ _ _ _ _ 100 8);
        [eapply (treach_alloc _ _ _ _ _ 10 8);
          [apply (treach_init _ _ (mkMWorld [] ex_orc)); reflexivity|]|]|];
    vm_compute; reflexivity. }
  split; [|reflexivity].
  cbn. repeat split; try discriminate; intros c H; repeat destruct H as [<-|H]; try easy.
Qed.

Example C25_ex : let pred n s a := s <? 100 in
  conditional_allocate pred 0 (mkWorld [] (fun _ => Some 64)) 10 8 =
    (Ret 64, mkWorld [UAlloc 10 8 (Some 64)] (fun _ => Some 64)) /\
  conditional_allocate pred 0 (mkWorld [] (fun _ => Some 64)) 100 8 =
    (Throw bad_alloc, mkWorld [] (fun _ => Some 64)).
Proof. split; reflexivity. Qed.

Example C26_ex1 : exists m w live,
  reach debug_allocate debug_deallocate nonneg [] fresh m w live /\ upstream_ok (ulog w) /\
  live = [mkBlock 4096 100 8; mkBlock 64 10 8].
Proof.
  eexists. eexists. eexists. split; [|split].
  - eapply (run_reach _ _ nonneg [] fresh
      [HAlloc 10 8; HAlloc 100 8; HAlloc 5 1; HAlloc 50 1; HFree 0]);
      [apply (reach_init _ _ _ _ _ _ (mkWorld [] ex_orc)); reflexivity
      |cbn; unfold nonneg; repeat split; lia|vm_compute; reflexivity].
  - apply upstream_okb_ok. reflexivity.
  - reflexivity.
Qed.

(** Double free, wrong size, unknown address, and an upstream that hands out
    overlapping memory (5 bytes at 70 inside the 10 bytes at 64). *)
Example C26_ex2 : exists w,
  debug_run [DAlloc 10 8; DAlloc 20 8; DFree 4096 20 8; DFree 4096 20 8; DFree 64 9 8;
             DFree 65 10 8; DAlloc 5 1]
    [] (mkWorld [] (fun n => nth n [Some 64; Some 4096; None; Some 70] None)) [] =
  ([mkBlock 64 10 8], w, [mkBlock 64 10 8]) /\
  ulog w = [UAlloc 5 1 (Some 70); UFree 4096 20 8; UAlloc 20 8 (Some 4096); UAlloc 10 8 (Some 64)].
Proof. eexists. split; reflexivity. Qed.
