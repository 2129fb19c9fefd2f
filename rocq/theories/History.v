(** Running concrete call sequences, to exhibit reachable states. *)
From Verif Require Import Base.

Inductive hop := HAlloc (size align : Z) | HFree (n : nat).

Section Run.
  Variable S : Type.
  Variable alloc : S -> world -> Z -> Z -> outcome Z * S * world.
  Variable free : S -> world -> Z -> Z -> Z -> outcome unit * S * world.

  (** [HFree n] frees the [n]-th live block (newest first). *)
  Fixpoint run (ops : list hop) (s : S) (w : world) (live : list block)
    : option (S * world * list block) :=
    match ops with
    | [] => Some (s, w, live)
    | HAlloc size align :: ops' =>
        match alloc s w size align with
        | (Ret p, s', w') =>
            run ops' s' w' (if size =? 0 then live else mkBlock p size align :: live)
        | (Throw _, s', w') => run ops' s' w' live
        | (UB, _, _) => None
        end
    | HFree n :: ops' =>
        match nth_error live n with
        | Some b =>
            match free s w (bptr b) (bsize b) (balign b) with
            | (Ret tt, s', w') => run ops' s' w' (remove1 b live)
            | _ => None
            end
        | None => None
        end
    end.

  Fixpoint ops_legal (legal : Z -> Z -> Prop) (ops : list hop) : Prop :=
    match ops with
    | [] => True
    | HAlloc size align :: ops' => legal size align /\ ops_legal legal ops'
    | HFree _ :: ops' => ops_legal legal ops'
    end.

  Lemma run_reach legal s0 w0 ops : forall s w live s' w' live',
    reach alloc free legal s0 w0 s w live -> ops_legal legal ops ->
    run ops s w live = Some (s', w', live') ->
    reach alloc free legal s0 w0 s' w' live'.
  Proof.
    induction ops as [|[size align|n] ops IH]; cbn [run ops_legal]; intros s w live s' w' live' HR HL E.
    - injection E as <- <- <-. exact HR.
    - destruct HL as [HL1 HL2].
      destruct (alloc s w size align) as [[r s1] w1] eqn:Ea. destruct r as [p|e|].
      + eapply IH; [|exact HL2|exact E]. eapply reach_alloc; eauto.
      + eapply IH; [|exact HL2|exact E]. eapply reach_alloc_throw; eauto.
      + discriminate.
    - destruct (nth_error live n) as [b|] eqn:En; [|discriminate].
      destruct (free s w (bptr b) (bsize b) (balign b)) as [[r s1] w1] eqn:Ef.
      destruct r as [[]| |]; try discriminate.
      eapply IH; [|exact HL|exact E]. eapply reach_free; eauto. eapply nth_error_In; eauto.
  Qed.
End Run.
Arguments run {S} alloc free ops s w live.
Arguments run_reach {S} alloc free legal s0 w0 ops s w live s' w' live' _ _ _.
