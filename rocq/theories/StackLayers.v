(** The resources of Stack.v keep to the rules of StackProofs.v. *)
From Verif Require Import Base BaseLemmas IntMath IntMathProofs Align AlignProofs
  Contiguous ContiguousProofs Forwarding ForwardingProofs Stack StackProofs.
From Coq Require Import Permutation.

Lemma req_pos s a : req_ok s a -> 0 < s.
Proof. unfold req_ok. lia. Qed.

Definition sized (live : list block) : Prop := Forall (fun b => 0 < bsize b) live.
Lemma sized_remove b live : sized live -> sized (remove1 b live).
Proof. unfold sized. rewrite !Forall_forall. intros H c Hc. apply H. eapply remove1_in; exact Hc. Qed.

(** ** identity_memory_resource and conditional_memory_resource *)
Definition fwd_inv {A} (s : A) (w : world) (live : list block) : Prop := ulive (ulog w) = live /\ sized live.

Lemma fwd_live {A} (s : A) w live : fwd_inv s w live -> upstream_ok (ulog w) ->
  pairwise_disjoint live /\
  forall b, In b live -> 0 < bptr b /\ (balign b | bptr b) /\ 0 < bsize b /\ exists u, In u (ulive (ulog w)) /\ inside b u.
Proof.
  intros (<- & HS) HU. split; [apply ulive_disjoint; exact HU|]. intros b Hb.
  destruct (ulive_props _ _ HU Hb) as (U1 & U2 & U3). split; [exact U1|]. split; [exact U3|].
  split; [unfold sized in HS; rewrite Forall_forall in HS; apply HS; exact Hb|]. exists b. split; [exact Hb|]. intros x Hx; exact Hx.
Qed.

Lemma block_eta b : mkBlock (bptr b) (bsize b) (balign b) = b.
Proof. destruct b; reflexivity. Qed.

Lemma identity_correct : correct identity_res.
Proof.
  exists fwd_inv. split; cbn [rstate r_init r_alloc r_free r_destroy identity_res].
  - intros s w size align r s' w'. unfold identity_allocate, up_alloc.
    destruct (size =? 0); [intros [= <- <- <-]; exists []; reflexivity|].
    destruct (uorc w (length (ulog w))); intros [= <- <- <-]; eexists [_]; reflexivity.
  - intros s w p size align r s' w'. unfold identity_deallocate, up_free.
    destruct (p =? 0); intros [= <- <- <-]; [exists []|eexists [_]]; reflexivity.
  - intros s w. exists []. reflexivity.
  - intros s w H. unfold fresh in H. split; [left; exact H|]. intros _. unfold fwd_inv. rewrite H. split; [reflexivity|constructor].
  - intros s w live size align r s' w' _ _ HR. unfold identity_allocate, up_alloc.
    destruct (size =? 0); [intros [= <- <- <-]; left; reflexivity|].
    destruct (uorc w (length (ulog w))); intros [= <- <- <-]; right; eexists; (split; [reflexivity|exact HR]).
  - intros s w live size align r s' w' (HL & HS) _ HR. pose proof (req_pos _ _ HR). unfold identity_allocate, up_alloc.
    destruct (Z.eqb_spec size 0); [lia|].
    destruct (uorc w (length (ulog w))) as [p|]; intros [= <- <- <-] _; unfold fwd_inv; cbn [ulog ulive].
    + left. exists p. split; [reflexivity|]. rewrite HL. split; [reflexivity|]. constructor; [cbn; lia|exact HS].
    + right. auto.
  - intros s w live b HI HU Hb. pose proof HI as (HL & HS).
    destruct (proj2 (fwd_live s w live HI HU) b Hb) as (B1 & _). unfold identity_deallocate.
    destruct (Z.eqb_spec (bptr b) 0); [lia|]. eexists _, _. split; [reflexivity|].
    unfold up_free, fwd_inv. cbn [ulog ulive]. rewrite block_eta. split.
    + right. eexists _, _, _. split; [reflexivity|]. rewrite block_eta, HL. exact Hb.
    + split; [congruence|]. apply sized_remove. exact HS.
  - intros s w live. apply fwd_live.
  - intros s w (HL & _) _ HC. auto.
Qed.

Lemma conditional_correct pred : correct (conditional_res pred).
Proof.
  exists fwd_inv. split; cbn [rstate r_init r_alloc r_free r_destroy conditional_res].
  - intros s w size align r s' w'. unfold conditional_allocate, up_alloc.
    destruct (size =? 0); [intros [= <- <- <-]; exists []; reflexivity|].
    destruct (pred s size align); [|intros [= <- <- <-]; exists []; reflexivity].
    destruct (uorc w (length (ulog w))); intros [= <- <- <-]; eexists [_]; reflexivity.
  - intros s w p size align r s' w'. unfold conditional_deallocate, up_free.
    destruct (p =? 0); intros [= <- <- <-]; [exists []|eexists [_]]; reflexivity.
  - intros s w. exists []. reflexivity.
  - intros s w (_ & H). unfold fresh in H. split; [left; exact H|]. intros _. unfold fwd_inv. rewrite H. split; [reflexivity|constructor].
  - intros s w live size align r s' w' _ _ HR. unfold conditional_allocate, up_alloc.
    destruct (size =? 0); [intros [= <- <- <-]; left; reflexivity|].
    destruct (pred s size align); [|intros [= <- <- <-]; left; reflexivity].
    destruct (uorc w (length (ulog w))); intros [= <- <- <-]; right; eexists; (split; [reflexivity|exact HR]).
  - intros s w live size align r s' w' (HL & HS) _ HR. pose proof (req_pos _ _ HR). unfold conditional_allocate, up_alloc.
    destruct (Z.eqb_spec size 0); [lia|].
    destruct (pred s size align); [|intros [= <- <- <-] _; right; split; [reflexivity|split; assumption]].
    destruct (uorc w (length (ulog w))) as [p|]; intros [= <- <- <-] _; unfold fwd_inv; cbn [ulog ulive].
    + left. exists p. split; [reflexivity|]. rewrite HL. split; [reflexivity|]. constructor; [cbn; lia|exact HS].
    + right. auto.
  - intros s w live b HI HU Hb. pose proof HI as (HL & HS).
    destruct (proj2 (fwd_live s w live HI HU) b Hb) as (B1 & _). unfold conditional_deallocate.
    destruct (Z.eqb_spec (bptr b) 0); [lia|]. eexists _, _. split; [reflexivity|].
    unfold up_free, fwd_inv. cbn [ulog ulive]. rewrite block_eta. split.
    + right. eexists _, _, _. split; [reflexivity|]. rewrite block_eta, HL. exact Hb.
    + split; [congruence|]. apply sized_remove. exact HS.
  - intros s w live. apply fwd_live.
  - intros s w (HL & _) _ HC. auto.
Qed.

(** ** debug_memory_resource *)
Lemma debug_correct : correct debug_res.
Proof.
  exists (fun m w live => fwd_inv m w live /\ dinv m live).
  split; cbn [rstate r_init r_alloc r_free r_destroy debug_res].
  - intros s w size align r s' w'. unfold debug_allocate, up_alloc.
    destruct (size =? 0); [intros [= <- <- <-]; exists []; reflexivity|].
    destruct (uorc w (length (ulog w))); [destruct (existsb _ _)|]; intros [= <- <- <-]; eexists [_]; reflexivity.
  - intros s w p size align r s' w'. unfold debug_deallocate, up_free.
    destruct (p =? 0); [intros [= <- <- <-]; exists []; reflexivity|].
    destruct (d_find s p); [|intros [= <- <- <-]; exists []; reflexivity].
    destruct (_ || _); intros [= <- <- <-]; [exists []|eexists [_]]; reflexivity.
  - intros s w. exists []. reflexivity.
  - intros s w (-> & H). unfold fresh in H. split; [left; exact H|]. intros _. unfold fwd_inv. rewrite H.
    split; [split; [reflexivity|constructor]|]. split; [reflexivity|]. split; [intros b []|exact Logic.I].
  - intros s w live size align r s' w' _ _ HR. unfold debug_allocate, up_alloc.
    destruct (size =? 0); [intros [= <- <- <-]; left; reflexivity|].
    destruct (uorc w (length (ulog w))); [destruct (existsb _ _)|]; intros [= <- <- <-]; right; eexists; (split; [reflexivity|exact HR]).
  - intros s w live size align r s' w' ((HL & HS) & HD) _ HR E HU. pose proof (req_pos _ _ HR) as HP.
    pose proof (debug_allocate_spec s live w size align HD HP) as Q. unfold up_alloc in Q. cbn [fst snd] in Q.
    destruct (uorc w (length (ulog w))) as [p|].
    + destruct Q as [((c & Hc & Ho) & Q)|(Hn & Q & QD)]; rewrite Q in E; injection E as <- <- <-.
      * exfalso. cbn [ulog upstream_ok] in HU. destruct HU as (_ & _ & _ & HU & _). rewrite HL in HU. exact (HU c Hc Ho).
      * left. exists p. split; [reflexivity|]. split; [|exact QD]. unfold fwd_inv. cbn [ulog ulive]. rewrite HL.
        split; [reflexivity|]. constructor; [cbn; lia|exact HS].
    + rewrite Q in E. injection E as <- <- <-. right. split; [reflexivity|]. split; [split; assumption|exact HD].
  - intros s w live b (HI & HD) HU Hb. pose proof HI as (HL & HS).
    destruct (proj2 (fwd_live s w live HI HU) b Hb) as (B1 & _).
    pose proof HD as (-> & D2 & D3).
    destruct (debug_deallocate_spec live live w (bptr b) (bsize b) (balign b) HD) as [(E0 & _)|[(_ & _ & E)|(_ & Hn & _)]]; [lia| |].
    2:{ rewrite block_eta in Hn. contradiction. }
    eexists _, _. split; [exact E|]. rewrite block_eta. unfold up_free, fwd_inv. cbn [ulog ulive]. rewrite block_eta. split.
    + right. eexists _, _, _. split; [reflexivity|]. rewrite block_eta, HL. exact Hb.
    + split; [split; [congruence|apply sized_remove; exact HS]|].
      apply dinv_remove1. exact HD.
  - intros s w live (HI & _). exact (fwd_live s w live HI).
  - intros s w ((HL & _) & _) _ HC. auto.
Qed.

(** ** contiguous_memory_resource *)
Definition cont_inv (n : Z) (s : cstate) (w : world) (live : list block) : Prop :=
  c_inv s /\ c_size s = n /\ ulive (ulog w) = [mkBlock (c_begin s) n max_align] /\ pairwise_disjoint live /\
  forall b, In b live -> 0 < bsize b /\ (balign b | bptr b) /\ c_begin s <= bptr b /\ bptr b + bsize b <= c_next s.

Lemma contiguous_correct n : 0 < n <= 2 ^ 63 -> correct (contiguous_res n).
Proof.
  intros Hn. exists (cont_inv n). split; cbn [rstate r_init r_alloc r_free r_destroy contiguous_res].
  - intros s w size align r s' w'. destruct (c_allocate s size align). intros [= <- <- <-]. exists []. reflexivity.
  - intros s w p size align r s' w'. destruct (p =? 0); intros [= <- <- <-]; exists []; reflexivity.
  - intros s w. eexists [_]. reflexivity.
  - intros s w (w0 & F & E). unfold fresh in F. split.
    + unfold c_construct, up_alloc in E. destruct (uorc w0 (length (ulog w0))); [|discriminate].
      injection E as <- <-. cbn [ulog]. rewrite F. right. eexists. split; [reflexivity|]. cbn [call_ok].
      split; [exact Hn|]. split; [exists 4; split; [lia|reflexivity]|unfold max_align; lia].
    + intros HU. destruct (c_construct_inv w0 n s w ltac:(lia) E HU) as (C1 & C2 & C3 & C4).
      split; [exact C1|]. split; [exact C2|]. rewrite C4, F. cbn [ulive]. split; [reflexivity|].
      split; [exact Logic.I|intros b []].
  - intros s w live size align r s' w' _ _ _. destruct (c_allocate s size align). intros [= <- <- <-]. left. reflexivity.
  - intros s w live size align r s' w' (I1 & I2 & I3 & I4 & I5) HU HR E _.
    destruct (c_allocate s size align) as [r0 s0] eqn:EA. injection E as <- <- <-.
    destruct HR as (HR1 & HR2 & HR3).
    destruct (c_allocate_inv s size align r0 s0 I1) as (J1 & J2 & J3 & J4 & _ & J6); [split; [lia|split; [exact HR2|lia]]|exact EA|].
    destruct (J6 ltac:(lia)) as [(-> & ->)|(p & -> & P1 & P2 & P3)].
    + right. split; [reflexivity|]. split; auto.
    + left. exists p. split; [reflexivity|]. split; [exact J1|]. split; [congruence|]. rewrite J2. split; [exact I3|].
      destruct I1 as (_ & _ & _ & N1 & _).
      cbn [pairwise_disjoint]. split; [split; [|exact I4]|].
      * intros c Hc. destruct (I5 c Hc) as (C1 & C2 & C3 & C4). apply not_overlap_iff. cbn [bptr bsize]. lia.
      * intros b [<-|Hb]; cbn [bptr bsize balign].
        -- split; [lia|]. split; [exact P3|]. lia.
        -- destruct (I5 b Hb) as (C1 & C2 & C3 & C4). split; [exact C1|]. split; [exact C2|]. lia.
  - intros s w live b (I1 & I2 & I3 & I4 & I5) HU Hb. destruct (I5 b Hb) as (C1 & C2 & C3 & C4).
    destruct I1 as (N0 & N1). destruct (Z.eqb_spec (bptr b) 0); [lia|]. eexists _, _. split; [reflexivity|].
    split; [left; reflexivity|]. unfold c_deallocate. split; [split; assumption|]. split; [exact I2|]. split; [exact I3|].
    split; [apply pairwise_disjoint_remove1; exact I4|]. intros c Hc. apply I5. eapply remove1_in; exact Hc.
  - intros s w live (I1 & I2 & I3 & I4 & I5) HU. split; [exact I4|]. intros b Hb. destruct (I5 b Hb) as (C1 & C2 & C3 & C4).
    destruct I1 as (N0 & N1 & N2 & N3). split; [lia|]. split; [exact C2|]. split; [exact C1|].
    eexists. split; [rewrite I3; left; reflexivity|]. apply inside_iff; cbn [bptr bsize]; lia.
  - intros s w (I1 & I2 & I3 & I4 & I5) HU HC. unfold c_destroy, up_free. cbn [ulog calls_ok call_ok ulive].
    rewrite I3, I2. split; [split; [left; reflexivity|exact HC]|]. cbn [remove1]. destruct (block_eq_dec _ _); congruence.
Qed.

(** ** Use of upstream *)
Lemma identity_asking : asking identity_res.
Proof.
  split; cbn [rstate r_init r_alloc r_free identity_res].
  - unfold fresh. auto.
  - intros s l size align. unfold identity_allocate, up_alloc. destruct (size =? 0); [left; eexists _, _; reflexivity|right].
    exists size, align, (fun x => match x with Some p => (Ret p, s) | None => (Throw bad_alloc, s) end).
    intros orc. cbn [ulog uorc]. destruct (orc (length l)); reflexivity.
  - intros s l p size align. unfold identity_deallocate, up_free. destruct (p =? 0).
    + eexists _, _, []. reflexivity.
    + eexists _, _, [_]. reflexivity.
Qed.

Lemma conditional_asking pred : asking (conditional_res pred).
Proof.
  split; cbn [rstate r_init r_alloc r_free conditional_res].
  - unfold fresh. auto.
  - intros s l size align. unfold conditional_allocate, up_alloc. destruct (size =? 0); [left; eexists _, _; reflexivity|].
    destruct (pred s size align); [right|left; eexists _, _; reflexivity].
    exists size, align, (fun x => match x with Some p => (Ret p, S s) | None => (Throw bad_alloc, S s) end).
    intros orc. cbn [ulog uorc]. destruct (orc (length l)); reflexivity.
  - intros s l p size align. unfold conditional_deallocate, up_free. destruct (p =? 0).
    + eexists _, _, []. reflexivity.
    + eexists _, _, [_]. reflexivity.
Qed.

Lemma debug_asking : asking debug_res.
Proof.
  split; cbn [rstate r_init r_alloc r_free debug_res].
  - unfold fresh. auto.
  - intros s l size align. unfold debug_allocate, up_alloc. destruct (size =? 0); [left; eexists _, _; reflexivity|right].
    exists size, align, (fun x => match x with
      | Some p => if existsb (d_overlaps p size) s then (Throw logic_error, s) else (Ret p, d_emplace s (mkBlock p size align))
      | None => (Throw bad_alloc, s) end).
    intros orc. cbn [ulog uorc]. destruct (orc (length l)); [destruct (existsb _ _)|]; reflexivity.
  - intros s l p size align. unfold debug_deallocate, up_free. destruct (p =? 0); [eexists _, _, []; reflexivity|].
    destruct (d_find s p); [|eexists _, _, []; reflexivity].
    destruct (_ || _); [eexists _, _, []; reflexivity|eexists _, _, [_]; reflexivity].
Qed.

Lemma contiguous_asking n : asking (contiguous_res n).
Proof.
  split; cbn [rstate r_init r_alloc r_free contiguous_res].
  - intros s l orc orc' ([l0 orc0] & F & E) HA. unfold fresh in F. cbn [ulog] in F. subst l0.
    exists (mkWorld [] orc'). split; [reflexivity|]. revert E. unfold c_construct, up_alloc. cbn [ulog uorc length].
    destruct (orc0 0%nat) eqn:E0; [|discriminate]. intros [= <- <- <-]. rewrite (HA 0%nat) by (cbn; lia). rewrite E0. reflexivity.
  - intros s l size align. left. destruct (c_allocate s size align) as [r s']. exists r, s'. reflexivity.
  - intros s l p size align. destruct (p =? 0); eexists _, _, []; reflexivity.
Qed.
