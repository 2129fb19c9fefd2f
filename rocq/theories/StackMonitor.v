(** The terminal, synchronized and instrumenting resources of Stack.v, the last also with a
    memory monitor, keep to the rules of StackProofs.v. *)
From Verif Require Import Base BaseLemmas IntMath IntMathProofs Forwarding Instrument InstrumentProofs Stack StackProofs StackLayers.
From Coq Require Import Permutation.

Lemma terminal_correct : correct terminal_res.
Proof.
  exists (fun s w live => live = [] /\ ulog w = []). split; cbn [rstate r_init r_alloc r_free r_destroy terminal_res]; unfold terminal_allocate, terminal_deallocate.
  - intros s w size align r s' w' [= <- <- <-]. exists []. reflexivity.
  - intros s w p size align r s' w' [= <- <- <-]. exists []. reflexivity.
  - intros s w. exists []. reflexivity.
  - intros s w H. unfold fresh in H. split; [left; exact H|auto].
  - intros s w live size align r s' w' _ _ _ [= <- <- <-]. left. reflexivity.
  - intros s w live size align r s' w' HI _ _ [= <- <- <-] _. right. auto.
  - intros s w live b (-> & _) _ [].
  - intros s w live (-> & _) _. split; [exact Logic.I|intros b []].
  - intros s w (_ & HL) _ _. rewrite HL. split; [exact Logic.I|reflexivity].
Qed.
Lemma terminal_asking : asking terminal_res.
Proof.
  split; cbn [rstate r_init r_alloc r_free terminal_res]; unfold terminal_allocate, terminal_deallocate.
  - unfold fresh. auto.
  - intros s l size align. left. eexists _, _. reflexivity.
  - intros s l p size align. eexists _, _, []. reflexivity.
Qed.

Lemma synchronized_correct : correct synchronized_res.
Proof.
  exists fwd_inv. split; cbn [rstate r_init r_alloc r_free r_destroy synchronized_res].
  - intros s w size align r s' w'. unfold up_alloc.
    destruct (uorc w (length (ulog w))); intros [= <- <- <-]; eexists [_]; reflexivity.
  - intros s w p size align r s' w'. unfold up_free. intros [= <- <- <-]. eexists [_]. reflexivity.
  - intros s w. exists []. reflexivity.
  - intros s w H. unfold fresh in H. split; [left; exact H|]. intros _. unfold fwd_inv. rewrite H. split; [reflexivity|constructor].
  - intros s w live size align r s' w' _ _ HR. unfold up_alloc.
    destruct (uorc w (length (ulog w))); intros [= <- <- <-]; right; eexists; (split; [reflexivity|exact HR]).
  - intros s w live size align r s' w' (HL & HS) _ HR. pose proof (req_pos _ _ HR). unfold up_alloc.
    destruct (uorc w (length (ulog w))) as [p|]; intros [= <- <- <-] _; unfold fwd_inv; cbn [ulog ulive].
    + left. exists p. split; [reflexivity|]. rewrite HL. split; [reflexivity|]. constructor; [cbn; lia|exact HS].
    + right. auto.
  - intros s w live b (HL & HS) HU Hb. eexists _, _. split; [reflexivity|].
    unfold up_free, fwd_inv. cbn [ulog ulive]. rewrite block_eta. split.
    + right. eexists _, _, _. split; [reflexivity|]. rewrite block_eta, HL. exact Hb.
    + split; [congruence|]. apply sized_remove. exact HS.
  - intros s w live. apply fwd_live.
  - intros s w (HL & _) _ HC. auto.
Qed.
Lemma synchronized_asking : asking synchronized_res.
Proof.
  split; cbn [rstate r_init r_alloc r_free synchronized_res].
  - unfold fresh. auto.
  - intros s l size align. right. exists size, align, (fun x => match x with Some p => (Ret p, s) | None => (Throw bad_alloc, s) end).
    intros orc. unfold up_alloc. cbn [ulog uorc]. destruct (orc (length l)); reflexivity.
  - intros s l p size align. eexists _, _, [_]. reflexivity.
Qed.

Lemma instrumenting_correct st0 : correct (instrumenting_res st0).
Proof.
  exists fwd_inv. split; cbn [rstate r_init r_alloc r_free r_destroy instrumenting_res].
  - intros s w size align r s' w'. unfold i_allocate, up_alloc.
    destruct (size =? 0); [intros [= <- <- <-]; exists []; reflexivity|].
    destruct (uorc w (length (ulog w))); destruct (_ =? 0); intros [= <- <- <-]; eexists [_]; reflexivity.
  - intros s w p size align r s' w'. unfold i_deallocate, up_free.
    destruct (p =? 0); intros [= <- <- <-]; [exists []|eexists [_]]; reflexivity.
  - intros s w. exists []. reflexivity.
  - intros s w (_ & H). unfold fresh in H. split; [left; exact H|]. intros _. unfold fwd_inv. rewrite H. split; [reflexivity|constructor].
  - intros s w live size align r s' w' _ _ HR. unfold i_allocate, up_alloc.
    destruct (size =? 0); [intros [= <- <- <-]; left; reflexivity|].
    destruct (uorc w (length (ulog w))); destruct (_ =? 0); intros [= <- <- <-]; right; eexists; (split; [reflexivity|exact HR]).
  - intros s w live size align r s' w' (HL & HS) _ HR. pose proof (req_pos _ _ HR). unfold i_allocate, up_alloc.
    destruct (Z.eqb_spec size 0); [lia|].
    destruct (uorc w (length (ulog w))) as [p|].
    + destruct (Z.eqb_spec p 0) as [->|]; intros [= <- <- <-]; unfold fwd_inv; cbn [ulog ulive upstream_ok].
      * intros (H0 & _). lia.
      * intros _. left. exists p. split; [reflexivity|]. rewrite HL. split; [reflexivity|]. constructor; [cbn; lia|exact HS].
    + cbn [Z.eqb]. intros [= <- <- <-] _. right. split; [reflexivity|]. split; assumption.
  - intros s w live b HI HU Hb. pose proof HI as (HL & HS).
    destruct (proj2 (fwd_live s w live HI HU) b Hb) as (B1 & _). unfold i_deallocate.
    destruct (Z.eqb_spec (bptr b) 0); [lia|]. eexists _, _. split; [reflexivity|].
    unfold up_free, fwd_inv. cbn [ulog ulive]. rewrite block_eta. split.
    + right. eexists _, _, _. split; [reflexivity|]. rewrite block_eta, HL. exact Hb.
    + split; [congruence|]. apply sized_remove. exact HS.
  - intros s w live. apply fwd_live.
  - intros s w (HL & _) _ HC. auto.
Qed.
Lemma instrumenting_asking st0 : asking (instrumenting_res st0).
Proof.
  split; cbn [rstate r_init r_alloc r_free instrumenting_res].
  - unfold fresh. auto.
  - intros s l size align. unfold i_allocate, up_alloc. destruct (size =? 0); [left; eexists _, _; reflexivity|right].
    exists size, align, (fun x => let ptr := match x with Some p => p | None => 0 end in
      (if ptr =? 0 then Throw bad_alloc else Ret ptr, add_event s (EAlloc size align ptr))).
    intros orc. cbn [ulog uorc]. destruct (orc (length l)); destruct (_ =? 0); reflexivity.
  - intros s l p size align. unfold i_deallocate, up_free. destruct (p =? 0).
    + eexists _, _, []. reflexivity.
    + eexists _, _, [_]. reflexivity.
Qed.

(** The monitor: its assertion holds because the sum of the sizes of live blocks is below 2^64. *)
Definition watched (k : nat) (s : mstate) (w : world) (live : list block) : Prop :=
  fwd_inv s w live /\ once k (i_post (fst s)) /\ once k (i_pred (fst s)) /\ outstanding (snd s) = sum_sizes live.

Lemma monitored_correct k st0 : ~ In k (i_post st0) -> ~ In k (i_pred st0) -> correct (monitored_res k st0).
Proof.
  intros N1 N2. exists (watched k). split; cbn [rstate r_init r_alloc r_free r_destroy monitored_res].
  - intros s w size align r s' w'. unfold mon_allocate, i_allocate, up_alloc.
    destruct (size =? 0); [intros [= <- <- <-]; exists []; reflexivity|].
    destruct (uorc w (length (ulog w))); destruct (_ =? 0); destruct (fold_left _ _ _); intros [= <- <- <-];
      first [exists []; reflexivity|eexists [_]; reflexivity].
  - intros s w p size align r s' w'. unfold mon_deallocate, i_deallocate, up_free.
    destruct (p =? 0); [intros [= <- <- <-]; exists []; reflexivity|].
    destruct (fold_left _ _ _); intros [= <- <- <-]; [eexists [_]|exists []]; reflexivity.
  - intros s w. exists []. reflexivity.
  - intros s w (-> & H). unfold fresh in H. split; [left; exact H|]. intros _. split; [unfold fwd_inv; rewrite H; split; [reflexivity|constructor]|].
    cbn [fst snd attach add_pred add_post i_post i_pred]. split; [exists (i_post st0), []; auto|]. split; [exists (i_pred st0), []; auto|reflexivity].
  - intros s w live size align r s' w' (_ & O1 & _) _ HR E. pose proof (req_pos _ _ HR).
    destruct (mon_allocate_eq k s w size align) as (st' & Q & _); [lia|exact O1|]. rewrite Q in E. unfold up_alloc in E. cbn [fst] in E.
    injection E as <- <- <-. right. eexists. split; [reflexivity|exact HR].
  - intros s w live size align r s' w' ((HL & HS) & O1 & O2 & O3) HU HR E HU'. pose proof (req_pos _ _ HR).
    destruct (mon_allocate_eq k s w size align) as (st' & Q & P1 & P2); [lia|exact O1|]. rewrite Q in E. unfold up_alloc in E. cbn [fst] in E.
    destruct (uorc w (length (ulog w))) as [p|]; injection E as <- <- <-.
    + assert (p > 0) by (cbn [ulog upstream_ok] in HU'; lia). destruct (Z.eqb_spec p 0); [lia|]. left. exists p. split; [reflexivity|].
      assert (HS' : sized (mkBlock p size align :: live)) by (constructor; [cbn; lia|exact HS]).
      split; [split; [cbn [ulog ulive]; rewrite HL; reflexivity|exact HS']|].
      cbn [fst snd]. rewrite P1, P2. split; [exact O1|]. split; [exact O2|]. unfold post_allocate. destruct (Z.eqb_spec p 0); [lia|].
      cbn [outstanding]. rewrite O3.
      pose proof (ulive_sum_lt _ HU') as B. cbn [ulog ulive] in B. rewrite HL in B. unfold sized in HS'. rewrite Forall_forall in HS'. specialize (B HS').
      unfold sum_sizes in *. cbn [map fold_right bsize] in *. unfold wrap64, two64. rewrite Z.mod_small by lia. lia.
    + right. split; [reflexivity|]. cbn [Z.eqb]. split; [split; [exact HL|exact HS]|]. cbn [fst snd post_allocate Z.eqb]. rewrite P1, P2. auto.
  - intros s w live b (HI & O1 & O2 & O3) HU Hb. pose proof HI as (HL & HS).
    destruct (proj2 (fwd_live s w live HI HU) b Hb) as (B1 & _ & B3 & _).
    destruct (mon_deallocate_eq k s w (bptr b) (bsize b) (balign b)) as (st' & P1 & P2 & Q); [lia|exact O2|].
    assert (G : bsize b <= sum_sizes live) by (apply sum_sizes_ge; [|exact Hb]; intros c Hc; unfold sized in HS; rewrite Forall_forall in HS; specialize (HS c Hc); lia).
    unfold pre_deallocate in Q. rewrite O3 in Q. destruct (Z.ltb_spec (sum_sizes live) (bsize b)); [lia|].
    eexists _, _. split; [exact Q|]. unfold up_free. cbn [ulog ulive]. split.
    + right. eexists _, _, _. split; [reflexivity|]. rewrite block_eta, HL. exact Hb.
    + split; [split; [cbn [ulog ulive]; rewrite block_eta; congruence|apply sized_remove; exact HS]|]. cbn [fst snd outstanding]. rewrite P1, P2.
      split; [exact O1|]. split; [exact O2|]. rewrite sum_sizes_remove1 by exact Hb. reflexivity.
  - intros s w live (HI & _). exact (fwd_live s w live HI).
  - intros s w ((HL & _) & _) _ HC. auto.
Qed.
Lemma fold_some k l : (forall o, In o l -> match o with OPreD _ _ _ _ => False | _ => True end) ->
  forall m, exists m', fold_left (mon_obs k) l (Some m) = Some m'.
Proof.
  induction l as [|o l IH]; intros H m; [exists m; reflexivity|]. cbn [fold_left].
  assert (E : exists m1, mon_obs k (Some m) o = Some m1).
  { specialize (H o (or_introl eq_refl)). destruct o; cbn [mon_obs]; try (exists m; reflexivity); [destruct (Nat.eqb _ _); eexists; reflexivity|destruct H]. }
  destruct E as (m1 & ->). apply IH. intros x Hx. apply H. right. exact Hx.
Qed.
Lemma monitored_asking k st0 : asking (monitored_res k st0).
Proof.
  split; cbn [rstate r_init r_alloc r_free monitored_res].
  - unfold fresh. auto.
  - intros s l size align. unfold mon_allocate, i_allocate, up_alloc. destruct (size =? 0); [left; eexists _, _; reflexivity|right].
    exists size, align, (fun x => let ptr := match x with Some p => p | None => 0 end in
      let st' := add_event (fst s) (EAlloc size align ptr) in
      (if ptr =? 0 then Throw bad_alloc else Ret ptr,
       (st', match fold_left (mon_obs k) (map (fun h => OPre h size align) (i_pre (fst s)) ++
               [OUp (UAlloc size align x)] ++ map (fun h => OPost h size align ptr) (i_post st')) (Some (snd s)) with
             | Some m => m | None => snd s end))).
    intros orc. cbn [ulog uorc].
    match goal with |- context [fold_left (mon_obs k) ?l (Some (snd s))] => destruct (fold_some k l) with (m := snd s) as (m & E) end.
    { intros o Ho. apply in_app_or in Ho. destruct Ho as [Ho|Ho]; [apply in_map_iff in Ho; destruct Ho as (? & <- & _); exact Logic.I|].
      apply in_app_or in Ho. destruct Ho as [[<-|[]]|Ho]; [exact Logic.I|]. apply in_map_iff in Ho. destruct Ho as (? & <- & _). exact Logic.I. }
    destruct (_ =? 0); rewrite !E; reflexivity.
  - intros s l p size align. unfold mon_deallocate, i_deallocate, up_free. destruct (p =? 0); [eexists _, _, []; reflexivity|].
    destruct (fold_left _ _ _); [eexists _, _, [_]|eexists _, _, []]; reflexivity.
Qed.
