(** Proofs about EdmKernel.v. *)
From Coq Require Import Permutation.
From Verif Require Import Base BaseLemmas DeviceVector Copy CopyProofs EdmDevice EdmDeviceProofs EdmKernel.

Notation erow := (list (option (list Z))).
Definition e_row (t : ethr) : erow := match t with ECall r | EInit _ _ r | EAt _ r | EFill _ _ _ r | EDone _ r => r end.
Definition e_idx (t : ethr) : option Z :=
  match t with ECall _ => None | EInit i _ _ | EAt i _ | EFill i _ _ _ | EDone i _ => Some i end.
Definition e_done (t : ethr) : Prop := match t with EDone _ _ => True | _ => False end.

Section EdmKernelInv.
  Variable vars : list var.
  Variable d : edev.
  Variable dflt : list (list Z).
  Variable m0 : cmem.
  Variable n0 : Z.
  Variable rows : list erow.
  Variable old : Z -> nat -> list Z.   (* what element [p] of variable [k] was *)
  Let vw := ed_vars d.
  Let cap := ed_cap d.
  Let sp := ed_sizep d.
  Hypothesis Hlen : length vw = length vars.
  Hypothesis Hsp : sp <> 0.
  Hypothesis Hcap : cap < 2 ^ 32.
  Definition vec (k : nat) (v : var) (y : Placement.vview) : Prop := nth_error vars k = Some v /\ nth_error vw k = Some (EVector y).
  Hypothesis Hvec : forall k v y, vec k v y -> 0 < ve_sz v /\ Placement.v_cap y = cap /\ Placement.v_size y = sp /\
    acc m0 (Placement.v_ptr y) (cap * ve_sz v) /\ apart sp 4 (Placement.v_ptr y) (cap * ve_sz v) /\ Z.of_nat (length (nth k dflt [])) = ve_sz v.
  Hypothesis Hjag : forall k n l h i, nth_error vw k <> Some (EJagged n l h i).
  Hypothesis Hpair : forall k k' v v' y y', k <> k' -> vec k v y -> vec k' v' y' ->
    apart (Placement.v_ptr y) (cap * ve_sz v) (Placement.v_ptr y') (cap * ve_sz v').
  Hypothesis Hacc : acc m0 sp 4.
  Hypothesis Hroom : 0 <= n0 <= cap.
  Hypothesis Hrows : forall row k bs, In row rows -> nth_error row k = Some (Some bs) ->
    exists v y, vec k v y /\ Z.of_nat (length bs) = ve_sz v.

  (** The last value of an element. *)
  Definition fin (row : erow) (k : nat) : list Z := match nth k row None with Some b => b | None => nth k dflt [] end.
  (** What the thread has stored so far. *)
  Definition e_cell (t : ethr) (k : nat) : option (list Z) :=
    match t with
    | ECall _ => None
    | EInit _ j _ => if (k <? j)%nat then Some (nth k dflt []) else None
    | EAt _ _ => Some (nth k dflt [])
    | EFill _ j _ row => Some (if (k <? j)%nat then fin row k else nth k dflt [])
    | EDone _ row => Some (fin row k)
    end.
  Definition refs_ok (t : ethr) : Prop :=
    match t with
    | EFill idx _ refs _ => length refs = length vars /\ forall k v y, vec k v y -> nth_error refs k = Some (RAt (Placement.v_ptr y + idx * ve_sz v))
    | _ => True
    end.
  (** The elements with index [idx]. *)
  Definition elems (idx x : Z) : Prop := exists k v y, vec k v y /\ within (Placement.v_ptr y + idx * ve_sz v) (ve_sz v) x.

  Record inv (m : cmem) (thr : list ethr) (ord : list nat) : Prop := mkInv {
    i_rows : map e_row thr = rows;
    i_size : get_bytes m sp 4 = Some (le32 (n0 + Z.of_nat (length ord)));
    i_full : n0 + Z.of_nat (length ord) <= cap;
    i_nd : NoDup ord;
    i_ord : forall p i, nth_error ord p = Some i -> exists t, nth_error thr i = Some t /\ e_idx t = Some (n0 + Z.of_nat p);
    i_in : forall i t idx, nth_error thr i = Some t -> e_idx t = Some idx -> exists p, nth_error ord p = Some i /\ idx = n0 + Z.of_nat p;
    i_refs : forall i t, nth_error thr i = Some t -> refs_ok t;
    i_cell : forall i t idx k v y bs, nth_error thr i = Some t -> e_idx t = Some idx -> vec k v y -> e_cell t k = Some bs ->
      get_bytes m (Placement.v_ptr y + idx * ve_sz v) (Z.to_nat (ve_sz v)) = Some bs;
    i_old : forall p k v y, 0 <= p < n0 -> vec k v y -> get_bytes m (Placement.v_ptr y + p * ve_sz v) (Z.to_nat (ve_sz v)) = Some (old p k);
    i_changes : changes (fun x => within sp 4 x \/ exists p, n0 <= p < n0 + Z.of_nat (length ord) /\ elems p x) m0 m;
    i_acc : same_acc m0 m }.

  Lemma nth_upd {A} (l : list A) i j x y : nth_error (upd l i x) j = Some y -> (i = j /\ y = x) \/ (i <> j /\ nth_error l j = Some y).
  Proof.
    destruct (Nat.eq_dec i j) as [<-|D].
    - intros E. assert (L : (i < length l)%nat) by (rewrite <- (upd_length l i x); apply nth_error_Some; congruence).
      rewrite nth_error_upd_eq in E by auto. injection E as <-. auto.
    - rewrite nth_error_upd_ne by auto. auto.
  Qed.
  Lemma map_upd_same {A B} (f : A -> B) l : forall i a b, nth_error l i = Some a -> f b = f a -> map f (upd l i b) = map f l.
  Proof.
    induction l as [|x l IH]; intros [|i] a b; cbn [nth_error]; try discriminate.
    - intros E H. injection E as ->. cbn [upd map]. f_equal. exact H.
    - intros E H. cbn [upd map]. f_equal. eapply IH; eauto.
  Qed.

  (** Bounds of the indices. *)
  Lemma ord_le m thr ord : inv m thr ord -> (length ord <= length rows)%nat.
  Proof.
    intros R. rewrite <- (i_rows _ _ _ R), map_length. rewrite <- (seq_length (length thr) 0). apply NoDup_incl_length; [apply R|].
    intros i Hi. apply In_nth_error in Hi. destruct Hi as (p & Hp). destruct (i_ord _ _ _ R p i Hp) as (t & Ht & _).
    apply in_seq. assert (i < length thr)%nat by (apply nth_error_Some; congruence). lia.
  Qed.
  Lemma ord_lt m thr ord i t : inv m thr ord -> nth_error thr i = Some t -> e_idx t = None -> (length ord < length rows)%nat.
  Proof.
    intros R N E. rewrite <- (i_rows _ _ _ R), map_length. rewrite <- (seq_length (length thr) 0).
    assert (Hi : (i < length thr)%nat) by (apply nth_error_Some; congruence).
    assert (L : (length (i :: ord) <= length (seq 0 (length thr)))%nat); [|cbn [length] in L; lia].
    assert (NI : ~ In i ord).
    { intros Hin. apply In_nth_error in Hin. destruct Hin as (p & Hp). destruct (i_ord _ _ _ R p i Hp) as (t' & Ht & E'). congruence. }
    apply NoDup_incl_length; [constructor; [exact NI|apply R]|]. intros j [<-|Hj]; [apply in_seq; lia|].
    apply In_nth_error in Hj. destruct Hj as (p & Hp). destruct (i_ord _ _ _ R p j Hp) as (t' & Ht & _).
    apply in_seq. assert (j < length thr)%nat by (apply nth_error_Some; congruence). lia.
  Qed.
  Lemma idx_bound m thr ord i t idx : inv m thr ord -> nth_error thr i = Some t -> e_idx t = Some idx ->
    n0 <= idx < n0 + Z.of_nat (length ord) /\ n0 <= idx < n0 + Z.of_nat (length rows) /\ idx < cap.
  Proof.
    intros R N E. pose proof (i_full _ _ _ R). destruct (i_in _ _ _ R i t idx N E) as (p & Hp & ->). pose proof (ord_le _ _ _ R).
    assert (p < length ord)%nat by (apply nth_error_Some; congruence). lia.
  Qed.
  Lemma idx_inj m thr ord i j t u idx : inv m thr ord -> nth_error thr i = Some t -> nth_error thr j = Some u ->
    e_idx t = Some idx -> e_idx u = Some idx -> i = j.
  Proof.
    intros R N1 N2 E1 E2. destruct (i_in _ _ _ R i t idx N1 E1) as (p & Hp & Ep). destruct (i_in _ _ _ R j u idx N2 E2) as (q & Hq & Eq).
    assert (p = q) by lia. subst q. congruence.
  Qed.
  (** Elements do not share bytes with each other or the counter. *)
  Lemma elem_apart k k' v v' y y' p p' x : vec k v y -> vec k' v' y' -> 0 <= p < cap -> 0 <= p' < cap ->
    within (Placement.v_ptr y + p * ve_sz v) (ve_sz v) x -> within (Placement.v_ptr y' + p' * ve_sz v') (ve_sz v') x -> k = k' /\ p = p'.
  Proof.
    intros V V' P P' W W'. destruct (Hvec _ _ _ V) as (S1 & _). destruct (Hvec _ _ _ V') as (S2 & _).
    destruct (Nat.eq_dec k k') as [<-|D].
    - split; [reflexivity|]. destruct V as (V1 & V2), V' as (V1' & V2'). assert (v' = v) by congruence. assert (y' = y) by congruence. subst.
      unfold within in *. assert (~ p < p') by (intros L; assert (p + 1 <= p') by lia; nia). assert (~ p' < p) by (intros L; assert (p' + 1 <= p) by lia; nia). lia.
    - exfalso. apply (Hpair k k' v v' y y' D V V' x). unfold within in *. nia.
  Qed.
  Lemma elem_counter k v y p x : vec k v y -> 0 <= p < cap -> within (Placement.v_ptr y + p * ve_sz v) (ve_sz v) x -> ~ within sp 4 x.
  Proof.
    intros V P W C. destruct (Hvec _ _ _ V) as (S1 & _ & _ & _ & A & _). apply (A x). unfold within in *. nia.
  Qed.

  (** A step that stores to elements of its own. *)
  Lemma inv_own m thr ord i t t' m' idx : inv m thr ord -> nth_error thr i = Some t -> e_idx t = Some idx -> e_idx t' = Some idx ->
    e_row t' = e_row t -> refs_ok t' -> changes (elems idx) m m' -> same_acc m m' ->
    (forall k v y bs, vec k v y -> e_cell t' k = Some bs -> get_bytes m' (Placement.v_ptr y + idx * ve_sz v) (Z.to_nat (ve_sz v)) = Some bs) ->
    inv m' (upd thr i t') ord.
  Proof.
    intros R N E E' Er Rf Ch Ac Ce. destruct (idx_bound _ _ _ _ _ _ R N E) as (B1 & B2).
    assert (Hi : (i < length thr)%nat) by (apply nth_error_Some; congruence).
    assert (Keep : forall k v y p, vec k v y -> 0 <= p < cap -> p <> idx ->
      get_bytes m' (Placement.v_ptr y + p * ve_sz v) (Z.to_nat (ve_sz v)) = get_bytes m (Placement.v_ptr y + p * ve_sz v) (Z.to_nat (ve_sz v))).
    { intros k v y p V P D. destruct (Hvec _ _ _ V) as (S1 & _). apply (changes_get _ _ _ _ _ Ch). intros x Hx (k' & v' & y' & V' & W').
      rewrite Z2Nat.id in Hx by lia. destruct (elem_apart k k' v v' y y' p idx x V V' P ltac:(lia) Hx W'). lia. }
    split.
    - rewrite (map_upd_same e_row thr i t t' N Er). apply R.
    - rewrite <- (i_size _ _ _ R). apply (changes_get _ _ _ _ _ Ch). intros x Hx (k & v & y & V & W).
      apply (elem_counter k v y idx x V ltac:(lia) W). exact Hx.
    - apply R.
    - apply R.
    - intros p j Hp. destruct (i_ord _ _ _ R p j Hp) as (u & Hu & Eu). destruct (Nat.eq_dec i j) as [<-|D].
      + exists t'. rewrite nth_error_upd_eq by auto. split; [reflexivity|]. congruence.
      + exists u. rewrite nth_error_upd_ne by auto. auto.
    - intros j u q Hu Eq. apply nth_upd in Hu. destruct Hu as [(<- & ->)|(D & Hu)].
      + apply (i_in _ _ _ R i t q N). congruence.
      + apply (i_in _ _ _ R j u q Hu Eq).
    - intros j u Hu. apply nth_upd in Hu. destruct Hu as [(<- & ->)|(D & Hu)]; [exact Rf|apply (i_refs _ _ _ R j u Hu)].
    - intros j u q k v y bs Hu Eq V Hc. apply nth_upd in Hu. destruct Hu as [(<- & ->)|(D & Hu)].
      + assert (q = idx) by congruence. subst q. apply (Ce k v y bs V Hc).
      + rewrite <- (i_cell _ _ _ R j u q k v y bs Hu Eq V Hc). destruct (idx_bound _ _ _ _ _ _ R Hu Eq) as (B3 & B4).
        apply (Keep k); [exact V|lia|]. intros ->. apply D. apply (idx_inj _ _ _ i j t u idx R N Hu E Eq).
    - intros p k v y Hp V. rewrite <- (i_old _ _ _ R p k v y Hp V). apply (Keep k); [exact V|lia|lia].
    - apply (changes_weaken (fun x => (within sp 4 x \/ exists p, n0 <= p < n0 + Z.of_nat (length ord) /\ elems p x) \/ elems idx x)).
      + eapply changes_trans; [apply R|exact Ch].
      + intros x [Hx|Hx]; [exact Hx|]. right. exists idx. split; [lia|exact Hx].
    - eapply same_acc_trans; [apply R|exact Ac].
  Qed.

  (** The step that claims an index. *)
  Lemma inv_claim m thr ord i row : inv m thr ord -> nth_error thr i = Some (ECall row) ->
    let n := n0 + Z.of_nat (length ord) in n < cap ->
    0 <= n < cap /\ inv (put_bytes m sp (le32 (n + 1))) (upd thr i (EInit n 0 row)) (ord ++ [i]).
  Proof.
    intros R N n Hn. pose proof (ord_lt _ _ _ _ _ R N eq_refl) as L.
    assert (Hi : (i < length thr)%nat) by (apply nth_error_Some; congruence).
    assert (Bn : 0 <= n < cap) by lia. split; [exact Bn|].
    assert (Ch : changes (within sp 4) m (put_bytes m sp (le32 (n + 1)))) by apply (put_bytes_changes m sp (le32 (n + 1))).
    assert (Keep : forall k v y p, vec k v y -> 0 <= p < cap -> get_bytes (put_bytes m sp (le32 (n + 1))) (Placement.v_ptr y + p * ve_sz v) (Z.to_nat (ve_sz v))
      = get_bytes m (Placement.v_ptr y + p * ve_sz v) (Z.to_nat (ve_sz v))).
    { intros k v y p V P. destruct (Hvec _ _ _ V) as (S1 & _). apply (changes_get _ _ _ _ _ Ch). intros x Hx. rewrite Z2Nat.id in Hx by lia.
      apply (elem_counter k v y p x V P Hx). }
    split.
    - rewrite (map_upd_same e_row thr i _ _ N) by reflexivity. apply R.
    - rewrite app_length. cbn [length]. replace (n0 + Z.of_nat (length ord + 1)) with (n + 1) by lia. exact (get_bytes_put m sp (le32 (n + 1))).
    - rewrite app_length. cbn [length]. lia.
    - rewrite <- (rev_involutive (ord ++ [i])). apply NoDup_rev. rewrite rev_app_distr. cbn [rev app].
      constructor; [|apply NoDup_rev; apply R]. rewrite <- in_rev. intros Hin. apply In_nth_error in Hin. destruct Hin as (p & Hp).
      destruct (i_ord _ _ _ R p i Hp) as (t' & Ht & E'). rewrite N in Ht. injection Ht as <-. discriminate.
    - intros p j Hp. destruct (Nat.eq_dec i j) as [<-|D].
      + assert (p = length ord) as ->.
        { destruct (Nat.lt_ge_cases p (length ord)) as [C|C].
          - rewrite nth_error_app1 in Hp by auto. destruct (i_ord _ _ _ R p i Hp) as (t' & Ht & E'). rewrite N in Ht. injection Ht as <-. discriminate.
          - assert (p < length (ord ++ [i]))%nat by (apply nth_error_Some; congruence). rewrite app_length in H. cbn [length] in H. lia. }
        exists (EInit n 0 row). rewrite nth_error_upd_eq by auto. auto.
      + destruct (Nat.lt_ge_cases p (length ord)) as [C|C].
        * rewrite nth_error_app1 in Hp by auto. destruct (i_ord _ _ _ R p j Hp) as (t' & Ht & E'). exists t'. rewrite nth_error_upd_ne by auto. auto.
        * rewrite nth_error_app2 in Hp by auto. destruct (p - length ord)%nat as [|q]; cbn [nth_error] in Hp; [congruence|destruct q; discriminate].
    - intros j u q Hu Eq. apply nth_upd in Hu. destruct Hu as [(<- & ->)|(D & Hu)].
      + cbn [e_idx] in Eq. injection Eq as <-. exists (length ord). split; [|reflexivity]. rewrite nth_error_app2, Nat.sub_diag by lia. reflexivity.
      + destruct (i_in _ _ _ R j u q Hu Eq) as (p & Hp & ->). exists p. split; [|reflexivity].
        rewrite nth_error_app1; [exact Hp|apply nth_error_Some; congruence].
    - intros j u Hu. apply nth_upd in Hu. destruct Hu as [(<- & ->)|(D & Hu)]; [exact Logic.I|apply (i_refs _ _ _ R j u Hu)].
    - intros j u q k v y bs Hu Eq V Hc. apply nth_upd in Hu. destruct Hu as [(<- & ->)|(D & Hu)].
      + cbn [e_cell] in Hc. destruct (k <? 0)%nat eqn:C; [apply Nat.ltb_lt in C; lia|discriminate].
      + rewrite <- (i_cell _ _ _ R j u q k v y bs Hu Eq V Hc). destruct (idx_bound _ _ _ _ _ _ R Hu Eq) as (B3 & B4). apply (Keep k); [exact V|lia].
    - intros p k v y Hp V. rewrite <- (i_old _ _ _ R p k v y Hp V). apply (Keep k); [exact V|lia].
    - apply (changes_weaken (fun x => (within sp 4 x \/ exists p, n0 <= p < n0 + Z.of_nat (length ord) /\ elems p x) \/ within sp 4 x)).
      + eapply changes_trans; [apply R|exact Ch].
      + rewrite app_length. cbn [length]. intros x [[Hx|(p & Hp & Hx)]|Hx]; [left; exact Hx| |left; exact Hx]. right. exists p. split; [lia|exact Hx].
    - eapply same_acc_trans; [apply R|]. apply put_bytes_acc. cbn [length le32]. apply (acc_same m0); [apply R|exact Hacc].
  Qed.

  Lemma matches : dev_matches d = true.
  Proof.
    unfold dev_matches. apply forallb_forall. intros x Hx. apply In_nth_error in Hx. destruct Hx as (k & Hk). fold vw in Hk.
    destruct x as [p|y|n l h inner]; cbn [ev_matches]; [reflexivity| |destruct (Hjag _ _ _ _ _ Hk)].
    destruct (nth_error vars k) as [v|] eqn:E; [|apply nth_error_None in E; assert (k < length vw)%nat by (apply nth_error_Some; congruence); lia].
    destruct (Hvec k v y (conj E Hk)) as (_ & C & _). fold cap. lia.
  Qed.

  Lemma step_inv m thr ord i : inv m thr ord ->
    (exists m' thr' ord', e_step vars d dflt (m, thr) i = Ret (m', thr') /\ inv m' thr' ord') \/
    (e_step vars d dflt (m, thr) i = UB /\ (exists row, nth_error thr i = Some (ECall row)) /\ n0 + Z.of_nat (length ord) = cap).
  Proof.
    intros R. unfold e_step. pose proof (i_full _ _ _ R) as Fu. destruct (nth_error thr i) as [[row|idx k row|idx row|idx k refs row|idx row]|] eqn:N.
    - (* claim *)
      fold sp. rewrite matches. unfold assert.
      replace (sp =? 0) with false by lia. cbn [negb]. rewrite (i_size _ _ _ R). rewrite unle32_le32 by lia. fold cap.
      destruct (Z.eq_dec (n0 + Z.of_nat (length ord)) cap) as [Ef|Nf].
      { right. replace (n0 + Z.of_nat (length ord) <? cap) with false by lia. split; [reflexivity|]. split; [eauto|exact Ef]. }
      left. destruct (inv_claim m thr ord i row R N ltac:(lia)) as (B & R').
      replace (n0 + Z.of_nat (length ord) <? cap) with true by lia.
      assert (E32 : add32 (n0 + Z.of_nat (length ord)) 1 = n0 + Z.of_nat (length ord) + 1) by (unfold add32; apply Z.mod_small; lia). rewrite E32. eauto.
    - (* construct *)
      left.
      destruct (idx_bound _ _ _ _ _ _ R N eq_refl) as (B1 & B2). fold vw.
      destruct (nth_error vars k) as [v|] eqn:Ev.
      2:{ do 3 eexists. split; [reflexivity|]. eapply (inv_own m thr ord i _ (EAt idx row) m idx R N); try reflexivity; try exact Logic.I; try apply changes_refl; try apply same_acc_refl.
          intros k' v' y' bs V Hc. apply (i_cell _ _ _ R i _ idx k' v' y' bs N eq_refl V). cbn [e_cell] in *. rewrite <- Hc.
          replace (k' <? k)%nat with true; [reflexivity|]. symmetry. apply Nat.ltb_lt. apply nth_error_None in Ev. destruct V as (V & _).
          assert (k' < length vars)%nat by (apply nth_error_Some; congruence). lia. }
      destruct (nth_error vw k) as [[p|y|n l h inner]|] eqn:Ex.
      + do 3 eexists. split; [reflexivity|]. eapply (inv_own m thr ord i _ (EInit idx (S k) row) m idx R N); try reflexivity; try exact Logic.I; try apply changes_refl; try apply same_acc_refl.
        intros k' v' y' bs V Hc. apply (i_cell _ _ _ R i _ idx k' v' y' bs N eq_refl V). cbn [e_cell] in *. destruct (k' <? S k)%nat eqn:C; [|discriminate]. rewrite <- Hc.
        replace (k' <? k)%nat with true; [reflexivity|]. symmetry. apply Nat.ltb_lt. apply Nat.ltb_lt in C. assert (k' <> k) by (intros ->; destruct V; congruence). lia.
      + assert (V : vec k v y) by (split; auto). destruct (Hvec _ _ _ V) as (S1 & C1 & C2 & A1 & A2 & Ld). rewrite C1. unfold assert.
        replace (idx <? cap) with true by lia.
        assert (Hac : acc m (Placement.v_ptr y + idx * ve_sz v) (ve_sz v)) by (apply (acc_sub m (Placement.v_ptr y) (cap * ve_sz v)); [apply (acc_same m0); [apply R|auto]|nia|nia]).
        destruct (acc_get m (Placement.v_ptr y + idx * ve_sz v) (ve_sz v) ltac:(lia) Hac) as (ob & ->). do 3 eexists. split; [reflexivity|].
        eapply (inv_own m thr ord i _ (EInit idx (S k) row) _ idx R N); try reflexivity; try exact Logic.I.
        * apply (changes_weaken (within (Placement.v_ptr y + idx * ve_sz v) (ve_sz v))); [rewrite <- Ld at 2; apply put_bytes_changes|]. intros x Hx. exists k, v, y. auto.
        * apply put_bytes_acc. rewrite Ld. exact Hac.
        * intros k' v' y' bs V' Hc. cbn [e_cell] in Hc. destruct (k' <? S k)%nat eqn:C; [|discriminate]. apply Nat.ltb_lt in C. injection Hc as <-.
          destruct (Nat.eq_dec k' k) as [->|D].
          -- destruct V as (V1 & V2), V' as (V1' & V2'). assert (v' = v) by congruence. assert (y' = y) by congruence. subst v' y'.
             replace (Z.to_nat (ve_sz v)) with (length (nth k dflt [])) by lia. apply get_bytes_put.
          -- destruct (Hvec _ _ _ V') as (S1' & _). rewrite <- (i_cell _ _ _ R i _ idx k' v' y' (nth k' dflt []) N eq_refl V').
             ++ apply (changes_get (within (Placement.v_ptr y + idx * ve_sz v) (ve_sz v))); [rewrite <- Ld at 2; apply put_bytes_changes|]. intros x Hx Hy.
                rewrite Z2Nat.id in Hx by lia. destruct (elem_apart k' k v' v y' y idx idx x V' V ltac:(lia) ltac:(lia) Hx Hy). congruence.
             ++ cbn [e_cell]. replace (k' <? k)%nat with true; [reflexivity|]. symmetry. apply Nat.ltb_lt. lia.
      + destruct (Hjag _ _ _ _ _ Ex).
      + exfalso. apply nth_error_None in Ex. assert (k < length vars)%nat by (apply nth_error_Some; congruence). lia.
    - (* at *)
      left.
      destruct (idx_bound _ _ _ _ _ _ R N eq_refl) as (B1 & B2). pose proof (ord_le _ _ _ R) as Lo.
      assert (Er : rd32 m sp = n0 + Z.of_nat (length ord)) by (unfold rd32; rewrite (i_size _ _ _ R); apply unle32_le32; lia).
      unfold dev_at, dev_size, dev_index. rewrite matches. unfold assert at 1. fold sp. replace (sp =? 0) with false by lia. cbn [bind]. rewrite Er. unfold assert.
      replace (idx <? n0 + Z.of_nat (length ord)) with true by lia. fold vw.
      assert (Hit : forall k v y, vec k v y -> dev_item (rd32 m) v (EVector y) idx = Ret (RAt (Placement.v_ptr y + idx * ve_sz v))).
      { intros k v y V. destruct (Hvec _ _ _ V) as (_ & _ & C2 & _). cbn [dev_item]. unfold vec_size, assert. rewrite C2. replace (sp =? 0) with false by lia.
        rewrite Er. replace (idx <? n0 + Z.of_nat (length ord)) with true by lia. reflexivity. }
      destruct (dev_items_ret (rd32 m) vars vw idx (eq_sym Hlen)) as (refs & Erefs).
      { intros k v x Hv Hx. destruct x as [p|y|n l h inner]; [eexists; reflexivity| |destruct (Hjag _ _ _ _ _ Hx)]. eexists. apply (Hit k). split; auto. }
      rewrite Erefs. cbn [bind]. destruct (dev_items_nth _ _ _ _ _ (eq_sym Hlen) Erefs) as (Lr & Nr). do 3 eexists. split; [reflexivity|].
      eapply (inv_own m thr ord i _ (EFill idx 0 refs row) m idx R N); try reflexivity; try apply changes_refl; try apply same_acc_refl.
      + split; [exact Lr|]. intros k v y V. destruct (Nr k v (EVector y) (proj1 V) (proj2 V)) as (r & Hr & Hi). rewrite (Hit k v y V) in Hi. congruence.
      + intros k v y bs V Hc. apply (i_cell _ _ _ R i _ idx k v y bs N eq_refl V). cbn [e_cell] in *. destruct (k <? 0)%nat eqn:C; [apply Nat.ltb_lt in C; lia|exact Hc].
    - (* assign *)
      left.
      destruct (idx_bound _ _ _ _ _ _ R N eq_refl) as (B1 & B2). pose proof (i_refs _ _ _ R i _ N) as Rf. cbn [refs_ok] in Rf. destruct Rf as (Lr & Rr).
      destruct (nth_error vars k) as [v|] eqn:Ev.
      2:{ do 3 eexists. split; [reflexivity|]. eapply (inv_own m thr ord i _ (EDone idx row) m idx R N); try reflexivity; try exact Logic.I; try apply changes_refl; try apply same_acc_refl.
          intros k' v' y' bs V Hc. apply (i_cell _ _ _ R i _ idx k' v' y' bs N eq_refl V). cbn [e_cell] in *. rewrite <- Hc.
          replace (k' <? k)%nat with true; [reflexivity|]. symmetry. apply Nat.ltb_lt. apply nth_error_None in Ev. destruct V as (V & _).
          assert (k' < length vars)%nat by (apply nth_error_Some; congruence). lia. }
      destruct (nth_error refs k) as [r|] eqn:Er.
      2:{ exfalso. apply nth_error_None in Er. assert (k < length vars)%nat by (apply nth_error_Some; congruence). lia. }
      destruct (nth k row None) as [bs|] eqn:Eb.
      2:{ do 3 eexists. split; [reflexivity|]. eapply (inv_own m thr ord i _ (EFill idx (S k) refs row) m idx R N); try reflexivity; try (split; assumption); try apply changes_refl; try apply same_acc_refl.
          intros k' v' y' bs V Hc. apply (i_cell _ _ _ R i _ idx k' v' y' bs N eq_refl V). cbn [e_cell] in *. rewrite <- Hc. f_equal.
          destruct (Nat.lt_trichotomy k' k) as [C|[->|C]].
          - replace (k' <? k)%nat with true by (symmetry; apply Nat.ltb_lt; lia). replace (k' <? S k)%nat with true by (symmetry; apply Nat.ltb_lt; lia). reflexivity.
          - rewrite Nat.ltb_irrefl. replace (k <? S k)%nat with true by (symmetry; apply Nat.ltb_lt; lia). unfold fin. rewrite Eb. reflexivity.
          - replace (k' <? k)%nat with false by (symmetry; apply Nat.ltb_ge; lia). replace (k' <? S k)%nat with false by (symmetry; apply Nat.ltb_ge; lia). reflexivity. }
      assert (Hrow : nth_error row k = Some (Some bs)).
      { destruct (nth_error row k) as [o|] eqn:Eo; [rewrite (nth_error_nth _ _ None Eo) in Eb; congruence|]. apply nth_error_None in Eo. rewrite nth_overflow in Eb by auto. discriminate. }
      assert (Hin : In row rows) by (rewrite <- (i_rows _ _ _ R); apply (in_map e_row) with (x := EFill idx k refs row); eapply nth_error_In, N).
      destruct (Hrows row k bs Hin Hrow) as (v1 & y & V & Lb). assert (v1 = v) by (destruct V; congruence). subst v1.
      pose proof (Rr k v y V) as Er'. assert (r = RAt (Placement.v_ptr y + idx * ve_sz v)) by congruence. subst r.
      destruct (Hvec _ _ _ V) as (S1 & C1 & C2 & A1 & A2 & Ld).
      assert (Hac : acc m (Placement.v_ptr y + idx * ve_sz v) (ve_sz v)) by (apply (acc_sub m (Placement.v_ptr y) (cap * ve_sz v)); [apply (acc_same m0); [apply R|auto]|nia|nia]).
      destruct (acc_get m (Placement.v_ptr y + idx * ve_sz v) (ve_sz v) ltac:(lia) Hac) as (ob & ->). do 3 eexists. split; [reflexivity|].
      eapply (inv_own m thr ord i _ (EFill idx (S k) refs row) _ idx R N); try reflexivity; try (split; assumption).
      + apply (changes_weaken (within (Placement.v_ptr y + idx * ve_sz v) (ve_sz v))); [rewrite <- Lb at 2; apply put_bytes_changes|]. intros x Hx. exists k, v, y. auto.
      + apply put_bytes_acc. rewrite Lb. exact Hac.
      + intros k' v' y' bs' V' Hc. cbn [e_cell] in Hc. injection Hc as <-. destruct (Nat.eq_dec k' k) as [->|D].
        * destruct V as (V1 & V2), V' as (V1' & V2'). assert (v' = v) by congruence. assert (y' = y) by congruence. subst v' y'.
          replace (k <? S k)%nat with true by (symmetry; apply Nat.ltb_lt; lia). unfold fin. rewrite Eb.
          replace (Z.to_nat (ve_sz v)) with (length bs) by lia. apply get_bytes_put.
        * destruct (Hvec _ _ _ V') as (S1' & _).
          assert (Ec : e_cell (EFill idx k refs row) k' = Some (if (k' <? S k)%nat then fin row k' else nth k' dflt [])).
          { cbn [e_cell]. f_equal. destruct (Nat.lt_trichotomy k' k) as [C|[->|C]]; [|congruence|].
            - replace (k' <? k)%nat with true by (symmetry; apply Nat.ltb_lt; lia). replace (k' <? S k)%nat with true by (symmetry; apply Nat.ltb_lt; lia). reflexivity.
            - replace (k' <? k)%nat with false by (symmetry; apply Nat.ltb_ge; lia). replace (k' <? S k)%nat with false by (symmetry; apply Nat.ltb_ge; lia). reflexivity. }
          rewrite <- (i_cell _ _ _ R i _ idx k' v' y' _ N eq_refl V' Ec).
          apply (changes_get (within (Placement.v_ptr y + idx * ve_sz v) (ve_sz v))); [rewrite <- Lb at 2; apply put_bytes_changes|]. intros x Hx Hy.
          rewrite Z2Nat.id in Hx by lia. destruct (elem_apart k' k v' v y' y idx idx x V' V ltac:(lia) ltac:(lia) Hx Hy). congruence.
    - left. do 3 eexists. split; [reflexivity|exact R].
    - left. do 3 eexists. split; [reflexivity|exact R].
  Qed.

  Lemma run_inv sched : forall m thr ord, inv m thr ord ->
    (exists m' thr' ord', e_run vars d dflt (m, thr) sched = Ret (m', thr') /\ inv m' thr' ord') \/
    (e_run vars d dflt (m, thr) sched = UB /\ exists before i after m' thr' ord', sched = before ++ i :: after /\
       e_run vars d dflt (m, thr) before = Ret (m', thr') /\ inv m' thr' ord' /\
       (exists row, nth_error thr' i = Some (ECall row)) /\ n0 + Z.of_nat (length ord') = cap).
  Proof.
    induction sched as [|i sched IH]; intros m thr ord R; cbn [e_run]; [left; eauto|].
    destruct (step_inv m thr ord i R) as [(m1 & thr1 & ord1 & E & R1)|(E & Q1 & Q2)]; rewrite E; cbn [bind].
    - destruct (IH m1 thr1 ord1 R1) as [H|(E2 & before & j & after & m' & thr' & ord' & -> & E3 & H)]; [left; exact H|]. right. split; [exact E2|].
      exists (i :: before), j, after, m', thr', ord'. split; [reflexivity|]. split; [|exact H]. cbn [e_run]. rewrite E. cbn [bind]. exact E3.
    - right. split; [reflexivity|]. exists [], i, sched, m, thr, ord. split; [reflexivity|]. split; [reflexivity|]. auto.
  Qed.
  (** With room for all threads the container is never full. *)
  Lemma run_room sched m thr ord : n0 + Z.of_nat (length rows) <= cap -> inv m thr ord ->
    exists m' thr' ord', e_run vars d dflt (m, thr) sched = Ret (m', thr') /\ inv m' thr' ord'.
  Proof.
    intros Hr R. destruct (run_inv sched m thr ord R) as [H|(_ & before & i & after & m' & thr' & ord' & _ & _ & R' & (row & N) & F)]; [exact H|].
    pose proof (ord_lt _ _ _ _ _ R' N eq_refl). lia.
  Qed.

  (** All threads are done. *)
  Lemma inv_end m thr ord : inv m thr ord -> Forall e_done thr ->
    get_bytes m sp 4 = Some (le32 (n0 + Z.of_nat (length rows))) /\
    exists new, Permutation new rows /\ forall p row k v y, nth_error new p = Some row -> vec k v y ->
      get_bytes m (Placement.v_ptr y + (n0 + Z.of_nat p) * ve_sz v) (Z.to_nat (ve_sz v)) = Some (fin row k).
  Proof.
    intros R F. assert (P : Permutation ord (seq 0 (length thr))).
    { apply NoDup_Permutation; [apply R|apply seq_NoDup|]. intros i. split.
      - intros Hi. apply In_nth_error in Hi. destruct Hi as (p & Hp). destruct (i_ord _ _ _ R p i Hp) as (t & Ht & _).
        apply in_seq. assert (i < length thr)%nat by (apply nth_error_Some; congruence). lia.
      - intros Hi. apply in_seq in Hi. destruct (nth_error thr i) as [t|] eqn:N; [|apply nth_error_None in N; lia].
        rewrite Forall_forall in F. pose proof (F t (nth_error_In _ _ N)) as D. destruct t as [| | | |idx row]; try contradiction.
        destruct (i_in _ _ _ R i _ idx N eq_refl) as (p & Hp & _). eapply nth_error_In, Hp. }
    assert (Lo : length ord = length rows) by (rewrite <- (i_rows _ _ _ R), map_length; apply Permutation_length in P; rewrite seq_length in P; exact P).
    split; [rewrite <- Lo; apply R|]. exists (map (fun i => nth i rows []) ord). split.
    - rewrite P. rewrite <- (i_rows _ _ _ R), <- (map_length e_row thr). generalize (map e_row thr). intros l. clear.
      assert (G : map (fun i => nth i l []) (seq 0 (length l)) = l); [|rewrite G; reflexivity].
      apply nth_ext with (d := []) (d' := []); [rewrite map_length, seq_length; reflexivity|]. intros n Hn. rewrite map_length, seq_length in Hn.
      rewrite (nth_indep _ [] (nth 0%nat l [])) by (rewrite map_length, seq_length; exact Hn).
      rewrite (map_nth (fun i => nth i l [])). rewrite seq_nth by exact Hn. reflexivity.
    - intros p row k v y Hp V. rewrite nth_error_map in Hp. destruct (nth_error ord p) as [i|] eqn:Ei; [|discriminate]. injection Hp as Hp.
      destruct (i_ord _ _ _ R p i Ei) as (t & Ht & Et). rewrite Forall_forall in F. pose proof (F t (nth_error_In _ _ Ht)) as D. destruct t as [| | | |idx r]; try contradiction.
      cbn [e_idx] in Et. injection Et as ->. apply (i_cell _ _ _ R i _ _ k v y _ Ht eq_refl V). cbn [e_cell]. f_equal. f_equal.
      rewrite <- Hp, <- (i_rows _ _ _ R). symmetry. apply (nth_error_nth _ _ []). rewrite nth_error_map, Ht. reflexivity.
  Qed.
End EdmKernelInv.

(** ** Progress *)
Section Progress.
  Variable vars : list var.
  Variable d : edev.
  Variable dflt : list (list Z).
  Let n := length vars.
  (** Steps that are left. *)
  Definition erank (t : ethr) : nat :=
    match t with
    | ECall _ => 2 * n + 4 | EInit _ k _ => (n - k) + n + 3 | EAt _ _ => n + 2 | EFill _ k _ _ => (n - k) + 1 | EDone _ _ => 0
    end.
  Lemma e_step_rank m thr i m' thr' : e_step vars d dflt (m, thr) i = Ret (m', thr') ->
    length thr' = length thr /\ forall j t, nth_error thr j = Some t ->
      exists t', nth_error thr' j = Some t' /\ (erank t' <= erank t - (if Nat.eq_dec i j then 1 else 0))%nat.
  Proof.
    unfold e_step, assert. intros E.
    assert (G : forall t t', nth_error thr i = Some t -> (erank t' < erank t)%nat -> thr' = upd thr i t' ->
      length thr' = length thr /\ forall j t, nth_error thr j = Some t ->
      exists t', nth_error thr' j = Some t' /\ (erank t' <= erank t - (if Nat.eq_dec i j then 1 else 0))%nat).
    { intros t t' N R ->. split; [apply upd_length|]. intros j u Hu. destruct (Nat.eq_dec i j) as [<-|D].
      - exists t'. rewrite nth_error_upd_eq by (apply nth_error_Some; congruence). split; [reflexivity|].
        assert (u = t) by congruence. subst u. lia.
      - exists u. rewrite nth_error_upd_ne by auto. split; [exact Hu|]. lia. }
    assert (Hk : forall k v, nth_error vars k = Some v -> (k < n)%nat) by (intros k v Hv; apply nth_error_Some; congruence).
    destruct (nth_error thr i) as [[row|idx k row|idx row|idx k refs row|idx row]|] eqn:N.
    - destruct (negb _); [|discriminate]. destruct (dev_matches d); [|discriminate]. destruct (get_bytes _ _ _); [|discriminate].
      destruct (_ <? _); [|discriminate]. injection E as _ <-. eapply G; [reflexivity| |reflexivity]. cbn [erank]. lia.
    - assert (G1 : forall v, nth_error vars k = Some v -> thr' = upd thr i (EInit idx (S k) row) -> length thr' = length thr /\ forall j t, nth_error thr j = Some t ->
        exists t', nth_error thr' j = Some t' /\ (erank t' <= erank t - (if Nat.eq_dec i j then 1 else 0))%nat).
      { intros v Hv E'. eapply G; [reflexivity| |exact E']. cbn [erank]. specialize (Hk k v Hv). lia. }
      assert (G2 : thr' = upd thr i (EAt idx row) -> length thr' = length thr /\ forall j t, nth_error thr j = Some t ->
        exists t', nth_error thr' j = Some t' /\ (erank t' <= erank t - (if Nat.eq_dec i j then 1 else 0))%nat).
      { intros E'. eapply G; [reflexivity| |exact E']. cbn [erank]. lia. }
      destruct (nth_error vars k) as [v|] eqn:Ev; [destruct (nth_error (ed_vars d) k) as [[p|y|? ? ? ?]|]|].
      + injection E as _ <-. eapply G1; reflexivity.
      + destruct (_ <? _); [|discriminate]. destruct (get_bytes _ _ _); [|discriminate]. injection E as _ <-. eapply G1; reflexivity.
      + injection E as _ <-. eapply G1; reflexivity.
      + injection E as _ <-. apply G2. reflexivity.
      + injection E as _ <-. apply G2. reflexivity.
    - destruct (dev_at _ _ _ _) as [refs| |]; try discriminate. cbn [bind] in E. injection E as _ <-. eapply G; [reflexivity| |reflexivity]. cbn [erank]. lia.
    - assert (G1 : forall v, nth_error vars k = Some v -> thr' = upd thr i (EFill idx (S k) refs row) -> length thr' = length thr /\ forall j t, nth_error thr j = Some t ->
        exists t', nth_error thr' j = Some t' /\ (erank t' <= erank t - (if Nat.eq_dec i j then 1 else 0))%nat).
      { intros v Hv E'. eapply G; [reflexivity| |exact E']. cbn [erank]. specialize (Hk k v Hv). lia. }
      assert (G2 : thr' = upd thr i (EDone idx row) -> length thr' = length thr /\ forall j t, nth_error thr j = Some t ->
        exists t', nth_error thr' j = Some t' /\ (erank t' <= erank t - (if Nat.eq_dec i j then 1 else 0))%nat).
      { intros E'. eapply G; [reflexivity| |exact E']. cbn [erank]. lia. }
      destruct (nth_error vars k) as [v|] eqn:Ev; [destruct (nth_error refs k) as [r|]|].
      + destruct (nth k row None) as [bs|]; [|injection E as _ <-; eapply G1; reflexivity]. destruct r as [p|]; [|discriminate].
        destruct (get_bytes _ _ _); [|discriminate]. injection E as _ <-. eapply G1; reflexivity.
      + injection E as _ <-. apply G2. reflexivity.
      + injection E as _ <-. apply G2. reflexivity.
    - injection E as _ <-. split; [reflexivity|]. intros j t Hj. exists t. split; [exact Hj|].
      destruct (Nat.eq_dec i j) as [<-|D]; [|lia]. assert (t = EDone idx row) by congruence. subst t. cbn [erank]. lia.
    - injection E as _ <-. split; [reflexivity|]. intros j t Hj. exists t. split; [exact Hj|].
      destruct (Nat.eq_dec i j) as [<-|D]; [congruence|lia].
  Qed.
  Lemma e_run_rank sched : forall m thr m' thr', e_run vars d dflt (m, thr) sched = Ret (m', thr') ->
    length thr' = length thr /\ forall j t, nth_error thr j = Some t ->
      exists t', nth_error thr' j = Some t' /\ (erank t' <= erank t - count_occ Nat.eq_dec sched j)%nat.
  Proof.
    induction sched as [|i sched IH]; intros m thr m' thr'; cbn [e_run].
    - intros E. injection E as _ <-. split; [reflexivity|]. intros j t Hj. exists t. cbn [count_occ]. split; [exact Hj|lia].
    - destruct (e_step vars d dflt (m, thr) i) as [[m1 thr1]| |] eqn:E1; cbn [bind]; try discriminate. intros E.
      destruct (e_step_rank _ _ _ _ _ E1) as (L & H). destruct (IH _ _ _ _ E) as (L2 & H2). split; [congruence|]. intros j t Hj.
      destruct (H j t Hj) as (t1 & Ht1 & R1). destruct (H2 j t1 Ht1) as (t' & Ht' & R'). exists t'. split; [exact Ht'|]. cbn [count_occ].
      destruct (Nat.eq_dec i j); lia.
  Qed.
End Progress.

Theorem edm_kernel_thm vars d dflt m (old : list (list (list Z))) (rows : list erow) sched :
  length (ed_vars d) = length vars -> ed_sizep d <> 0 -> ed_cap d < 2 ^ 32 ->
  (forall k v x, nth_error vars k = Some v -> nth_error (ed_vars d) k = Some x ->
     match x with
     | EScalar _ => True
     | EVector y => 0 < ve_sz v /\ Placement.v_cap y = ed_cap d /\ Placement.v_size y = ed_sizep d /\
         acc m (Placement.v_ptr y) (ed_cap d * ve_sz v) /\ apart (ed_sizep d) 4 (Placement.v_ptr y) (ed_cap d * ve_sz v) /\
         Z.of_nat (length (nth k dflt [])) = ve_sz v
     | EJagged _ _ _ _ => False
     end) ->
  (forall k k' v v' y y', k <> k' -> nth_error vars k = Some v -> nth_error vars k' = Some v' ->
     nth_error (ed_vars d) k = Some (EVector y) -> nth_error (ed_vars d) k' = Some (EVector y') ->
     apart (Placement.v_ptr y) (ed_cap d * ve_sz v) (Placement.v_ptr y') (ed_cap d * ve_sz v')) ->
  get_bytes m (ed_sizep d) 4 = Some (le32 (Z.of_nat (length old))) ->
  Z.of_nat (length old) + Z.of_nat (length rows) <= ed_cap d ->
  (forall p row k v y, nth_error old p = Some row -> nth_error vars k = Some v -> nth_error (ed_vars d) k = Some (EVector y) ->
     get_bytes m (Placement.v_ptr y + Z.of_nat p * ve_sz v) (Z.to_nat (ve_sz v)) = Some (nth k row [])) ->
  (forall row k bs, In row rows -> nth_error row k = Some (Some bs) ->
     exists v y, nth_error vars k = Some v /\ nth_error (ed_vars d) k = Some (EVector y) /\ Z.of_nat (length bs) = ve_sz v) ->
  exists m' thr, e_run vars d dflt (m, map ECall rows) sched = Ret (m', thr) /\ length thr = length rows /\
    changes (fun x => within (ed_sizep d) 4 x \/ exists p k v y, Z.of_nat (length old) <= p < Z.of_nat (length old) + Z.of_nat (length rows) /\
      nth_error vars k = Some v /\ nth_error (ed_vars d) k = Some (EVector y) /\ within (Placement.v_ptr y + p * ve_sz v) (ve_sz v) x) m m' /\
    same_acc m m' /\
    (forall p row k v y, nth_error old p = Some row -> nth_error vars k = Some v -> nth_error (ed_vars d) k = Some (EVector y) ->
       get_bytes m' (Placement.v_ptr y + Z.of_nat p * ve_sz v) (Z.to_nat (ve_sz v)) = Some (nth k row [])) /\
    (forall i idx row, nth_error thr i = Some (EDone idx row) -> nth_error rows i = Some row /\
       Z.of_nat (length old) <= idx < Z.of_nat (length old) + Z.of_nat (length rows) /\
       forall k v y, nth_error vars k = Some v -> nth_error (ed_vars d) k = Some (EVector y) ->
         get_bytes m' (Placement.v_ptr y + idx * ve_sz v) (Z.to_nat (ve_sz v)) = Some (match nth k row None with Some b => b | None => nth k dflt [] end)) /\
    ((forall i, (i < length rows)%nat -> (2 * length vars + 4 <= count_occ Nat.eq_dec sched i)%nat) -> Forall e_done thr) /\
    (Forall e_done thr ->
      get_bytes m' (ed_sizep d) 4 = Some (le32 (Z.of_nat (length old) + Z.of_nat (length rows))) /\
      exists new, Permutation new rows /\ forall p row k v y, nth_error new p = Some row ->
        nth_error vars k = Some v -> nth_error (ed_vars d) k = Some (EVector y) ->
        get_bytes m' (Placement.v_ptr y + (Z.of_nat (length old) + Z.of_nat p) * ve_sz v) (Z.to_nat (ve_sz v)) =
          Some (match nth k row None with Some b => b | None => nth k dflt [] end)).
Proof.
  intros Hlen Hsp Hcap Hvw Hpair Hsize Hroom Hold Hrows.
  assert (Hvec : forall k v y, vec vars d k v y -> 0 < ve_sz v /\ Placement.v_cap y = ed_cap d /\ Placement.v_size y = ed_sizep d /\
    acc m (Placement.v_ptr y) (ed_cap d * ve_sz v) /\ apart (ed_sizep d) 4 (Placement.v_ptr y) (ed_cap d * ve_sz v) /\ Z.of_nat (length (nth k dflt [])) = ve_sz v)
    by (intros k v y (V1 & V2); exact (Hvw k v _ V1 V2)).
  assert (Hjag : forall k n l h i, nth_error (ed_vars d) k <> Some (EJagged n l h i)).
  { intros k n l h i E. destruct (nth_error vars k) as [v|] eqn:Ev; [exact (Hvw k v _ Ev E)|].
    apply nth_error_None in Ev. assert (k < length (ed_vars d))%nat by (apply nth_error_Some; congruence). lia. }
  assert (Hpair' : forall k k' v v' y y', k <> k' -> vec vars d k v y -> vec vars d k' v' y' ->
    apart (Placement.v_ptr y) (ed_cap d * ve_sz v) (Placement.v_ptr y') (ed_cap d * ve_sz v')) by (intros k k' v v' y y' D (V1 & V2) (V3 & V4); eapply Hpair; eauto).
  assert (Hacc : acc m (ed_sizep d) 4) by (apply (get_bytes_acc 4); eauto).
  assert (Hrows' : forall row k bs, In row rows -> nth_error row k = Some (Some bs) -> exists v y, vec vars d k v y /\ Z.of_nat (length bs) = ve_sz v).
  { intros row k bs Hi Hn. destruct (Hrows row k bs Hi Hn) as (v & y & V1 & V2 & L). exists v, y. repeat split; auto. }
  set (n0 := Z.of_nat (length old)) in *.
  set (oldf := fun p k => nth k (nth (Z.to_nat p) old []) []).
  assert (Hroom' : 0 <= n0 <= ed_cap d) by lia.
  assert (R0 : inv vars d dflt m n0 rows oldf m (map ECall rows) []).
  { split; try (intros [|p]; discriminate).
    - rewrite map_map. cbn [e_row]. apply map_id.
    - rewrite Z.add_0_r. exact Hsize.
    - cbn [length]. lia.
    - constructor.
    - intros i t idx N E. rewrite nth_error_map in N. destruct (nth_error rows i); [|discriminate]. injection N as <-. discriminate.
    - intros i t N. rewrite nth_error_map in N. destruct (nth_error rows i); [|discriminate]. injection N as <-. exact Logic.I.
    - intros i t idx k v y bs N E. rewrite nth_error_map in N. destruct (nth_error rows i); [|discriminate]. injection N as <-. discriminate.
    - intros p k v y Hp (V1 & V2). destruct (nth_error old (Z.to_nat p)) as [row|] eqn:Er; [|apply nth_error_None in Er; lia].
      unfold oldf. rewrite (nth_error_nth _ _ [] Er). rewrite <- (Hold _ _ _ _ _ Er V1 V2). rewrite Z2Nat.id by lia. reflexivity.
    - apply changes_refl.
    - apply same_acc_refl. }
  destruct (run_room vars d dflt m n0 rows oldf Hlen Hsp Hcap Hvec Hjag Hpair' Hacc Hroom' Hrows' sched m (map ECall rows) [] Hroom R0) as (m' & thr & ord & E & R).
  exists m', thr. split; [exact E|].
  assert (L : length thr = length rows) by (rewrite <- (i_rows _ _ _ _ _ _ _ _ _ _ R), map_length; reflexivity). split; [exact L|].
  split. { apply (changes_weaken _ _ _ _ (i_changes _ _ _ _ _ _ _ _ _ _ R)). intros x [Hx|(p & Hp & k & v & y & (V1 & V2) & W)]; [left; exact Hx|]. right. exists p, k, v, y. assert (length ord <= length rows)%nat by (eapply ord_le; first [exact R|eassumption]). split; [lia|auto]. }
  split; [apply R|].
  split. { intros p row k v y Hp V1 V2. assert (Lp : (p < length old)%nat) by (apply nth_error_Some; congruence).
    rewrite (i_old _ _ _ _ _ _ _ _ _ _ R (Z.of_nat p) k v y ltac:(lia) (conj V1 V2)). unfold oldf. rewrite Nat2Z.id, (nth_error_nth _ _ [] Hp). reflexivity. }
  split. { intros i idx row N. split.
    - rewrite <- (i_rows _ _ _ _ _ _ _ _ _ _ R), nth_error_map, N. reflexivity.
    - split; [edestruct idx_bound as (_ & Q & _); first [exact R|exact N|reflexivity|exact Q|eassumption|idtac]; exact Q|].
      intros k v y V1 V2. apply (i_cell _ _ _ _ _ _ _ _ _ _ R i _ idx k v y _ N eq_refl (conj V1 V2)). reflexivity. }
  split.
  - intros Hs. apply Forall_forall. intros t Ht. apply In_nth_error in Ht. destruct Ht as (i & Hi).
    assert (Li : (i < length rows)%nat) by (rewrite <- L; apply nth_error_Some; congruence).
    destruct (e_run_rank vars d dflt sched _ _ _ _ E) as (_ & H). destruct (nth_error rows i) as [row|] eqn:Er; [|apply nth_error_None in Er; lia].
    destruct (H i (ECall row)) as (t' & Ht' & Rk); [rewrite nth_error_map, Er; reflexivity|]. assert (t' = t) by congruence. subst t'.
    specialize (Hs i Li). cbn [erank] in Rk. destruct t; cbn [erank e_done] in *; try lia; exact Logic.I.
  - intros F. edestruct inv_end as (H1 & new & H2 & H3); first [exact R|exact F|eassumption|idtac]. split; [exact H1|]. exists new. split; [exact H2|].
    intros p row k v y Hp V1 V2. exact (H3 p row k v y Hp (conj V1 V2)).
Qed.

(** The container may be too small: the only failure is then the assertion of
    push_back_default, by a thread that has found the container full. *)
Theorem edm_kernel_bounded vars d dflt m (old : list (list (list Z))) (rows : list erow) sched :
  length (ed_vars d) = length vars -> ed_sizep d <> 0 -> ed_cap d < 2 ^ 32 ->
  (forall k v x, nth_error vars k = Some v -> nth_error (ed_vars d) k = Some x ->
     match x with
     | EScalar _ => True
     | EVector y => 0 < ve_sz v /\ Placement.v_cap y = ed_cap d /\ Placement.v_size y = ed_sizep d /\
         acc m (Placement.v_ptr y) (ed_cap d * ve_sz v) /\ apart (ed_sizep d) 4 (Placement.v_ptr y) (ed_cap d * ve_sz v) /\
         Z.of_nat (length (nth k dflt [])) = ve_sz v
     | EJagged _ _ _ _ => False
     end) ->
  (forall k k' v v' y y', k <> k' -> nth_error vars k = Some v -> nth_error vars k' = Some v' ->
     nth_error (ed_vars d) k = Some (EVector y) -> nth_error (ed_vars d) k' = Some (EVector y') ->
     apart (Placement.v_ptr y) (ed_cap d * ve_sz v) (Placement.v_ptr y') (ed_cap d * ve_sz v')) ->
  get_bytes m (ed_sizep d) 4 = Some (le32 (Z.of_nat (length old))) ->
  Z.of_nat (length old) <= ed_cap d ->
  (forall p row k v y, nth_error old p = Some row -> nth_error vars k = Some v -> nth_error (ed_vars d) k = Some (EVector y) ->
     get_bytes m (Placement.v_ptr y + Z.of_nat p * ve_sz v) (Z.to_nat (ve_sz v)) = Some (nth k row [])) ->
  (forall row k bs, In row rows -> nth_error row k = Some (Some bs) ->
     exists v y, nth_error vars k = Some v /\ nth_error (ed_vars d) k = Some (EVector y) /\ Z.of_nat (length bs) = ve_sz v) ->
  let good m' thr n := length thr = length rows /\ get_bytes m' (ed_sizep d) 4 = Some (le32 n) /\ Z.of_nat (length old) <= n <= ed_cap d /\
    changes (fun x => within (ed_sizep d) 4 x \/ exists p k v y, Z.of_nat (length old) <= p < n /\
      nth_error vars k = Some v /\ nth_error (ed_vars d) k = Some (EVector y) /\ within (Placement.v_ptr y + p * ve_sz v) (ve_sz v) x) m m' /\
    (forall p row k v y, nth_error old p = Some row -> nth_error vars k = Some v -> nth_error (ed_vars d) k = Some (EVector y) ->
       get_bytes m' (Placement.v_ptr y + Z.of_nat p * ve_sz v) (Z.to_nat (ve_sz v)) = Some (nth k row [])) /\
    (forall i j idx row row', nth_error thr i = Some (EDone idx row) -> nth_error thr j = Some (EDone idx row') -> i = j) /\
    (forall i idx row, nth_error thr i = Some (EDone idx row) -> nth_error rows i = Some row /\ Z.of_nat (length old) <= idx < n /\
       forall k v y, nth_error vars k = Some v -> nth_error (ed_vars d) k = Some (EVector y) ->
         get_bytes m' (Placement.v_ptr y + idx * ve_sz v) (Z.to_nat (ve_sz v)) = Some (match nth k row None with Some b => b | None => nth k dflt [] end)) in
  (exists m' thr n, e_run vars d dflt (m, map ECall rows) sched = Ret (m', thr) /\ good m' thr n) \/
  (e_run vars d dflt (m, map ECall rows) sched = UB /\ exists before i after m' thr, sched = before ++ i :: after /\
     e_run vars d dflt (m, map ECall rows) before = Ret (m', thr) /\ (exists row, nth_error thr i = Some (ECall row)) /\ good m' thr (ed_cap d)).
Proof.
  intros Hlen Hsp Hcap Hvw Hpair Hsize Hroom Hold Hrows good.
  assert (Hvec : forall k v y, vec vars d k v y -> 0 < ve_sz v /\ Placement.v_cap y = ed_cap d /\ Placement.v_size y = ed_sizep d /\
    acc m (Placement.v_ptr y) (ed_cap d * ve_sz v) /\ apart (ed_sizep d) 4 (Placement.v_ptr y) (ed_cap d * ve_sz v) /\ Z.of_nat (length (nth k dflt [])) = ve_sz v)
    by (intros k v y (V1 & V2); exact (Hvw k v _ V1 V2)).
  assert (Hjag : forall k n l h i, nth_error (ed_vars d) k <> Some (EJagged n l h i)).
  { intros k n l h i E. destruct (nth_error vars k) as [v|] eqn:Ev; [exact (Hvw k v _ Ev E)|].
    apply nth_error_None in Ev. assert (k < length (ed_vars d))%nat by (apply nth_error_Some; congruence). lia. }
  assert (Hpair' : forall k k' v v' y y', k <> k' -> vec vars d k v y -> vec vars d k' v' y' ->
    apart (Placement.v_ptr y) (ed_cap d * ve_sz v) (Placement.v_ptr y') (ed_cap d * ve_sz v')) by (intros k k' v v' y y' D (V1 & V2) (V3 & V4); eapply Hpair; eauto).
  assert (Hacc : acc m (ed_sizep d) 4) by (apply (get_bytes_acc 4); eauto).
  assert (Hrows' : forall row k bs, In row rows -> nth_error row k = Some (Some bs) -> exists v y, vec vars d k v y /\ Z.of_nat (length bs) = ve_sz v).
  { intros row k bs Hi Hn. destruct (Hrows row k bs Hi Hn) as (v & y & V1 & V2 & L). exists v, y. repeat split; auto. }
  set (n0 := Z.of_nat (length old)) in *.
  set (oldf := fun p k => nth k (nth (Z.to_nat p) old []) []).
  assert (Hroom' : 0 <= n0 <= ed_cap d) by lia.
  assert (R0 : inv vars d dflt m n0 rows oldf m (map ECall rows) []).
  { split; try (intros [|p]; discriminate).
    - rewrite map_map. cbn [e_row]. apply map_id.
    - rewrite Z.add_0_r. exact Hsize.
    - cbn [length]. lia.
    - constructor.
    - intros i t idx N E. rewrite nth_error_map in N. destruct (nth_error rows i); [|discriminate]. injection N as <-. discriminate.
    - intros i t N. rewrite nth_error_map in N. destruct (nth_error rows i); [|discriminate]. injection N as <-. exact Logic.I.
    - intros i t idx k v y bs N E. rewrite nth_error_map in N. destruct (nth_error rows i); [|discriminate]. injection N as <-. discriminate.
    - intros p k v y Hp (V1 & V2). destruct (nth_error old (Z.to_nat p)) as [row|] eqn:Er; [|apply nth_error_None in Er; lia].
      unfold oldf. rewrite (nth_error_nth _ _ [] Er). rewrite <- (Hold _ _ _ _ _ Er V1 V2). rewrite Z2Nat.id by lia. reflexivity.
    - apply changes_refl.
    - apply same_acc_refl. }
  assert (G : forall m' thr ord, inv vars d dflt m n0 rows oldf m' thr ord -> good m' thr (n0 + Z.of_nat (length ord))).
  { intros m' thr ord R. pose proof (i_full _ _ _ _ _ _ _ _ _ _ R) as Fu. pose proof (i_in _ _ _ _ _ _ _ _ _ _ R) as Hin. split; [rewrite <- (i_rows _ _ _ _ _ _ _ _ _ _ R), map_length; reflexivity|].
    split; [apply R|]. split; [lia|]. split. { apply (changes_weaken _ _ _ _ (i_changes _ _ _ _ _ _ _ _ _ _ R)). intros x [Hx|(p & Hp & k & v & y & (V1 & V2) & W)]; [left; exact Hx|]. right. exists p, k, v, y. auto. }
    split. { intros p row k v y Hp V1 V2. assert (Lp : (p < length old)%nat) by (apply nth_error_Some; congruence).
      rewrite (i_old _ _ _ _ _ _ _ _ _ _ R (Z.of_nat p) k v y ltac:(lia) (conj V1 V2)). unfold oldf. rewrite Nat2Z.id, (nth_error_nth _ _ [] Hp). reflexivity. }
    split. { intros i j idx row row' Ni Nj. destruct (Hin i _ idx Ni eq_refl) as (p & Hp & Ep). destruct (Hin j _ idx Nj eq_refl) as (q & Hq & Eq).
      assert (p = q) by lia. subst q. congruence. }
    intros i idx row N. split; [rewrite <- (i_rows _ _ _ _ _ _ _ _ _ _ R), nth_error_map, N; reflexivity|]. split.
    - destruct (Hin i _ idx N eq_refl) as (p & Hp & ->). assert (p < length ord)%nat by (apply nth_error_Some; congruence). lia.
    - intros k v y V1 V2. apply (i_cell _ _ _ _ _ _ _ _ _ _ R i _ idx k v y _ N eq_refl (conj V1 V2)). reflexivity. }
  destruct (run_inv vars d dflt m n0 rows oldf Hlen Hsp Hcap Hvec Hjag Hpair' Hacc Hroom' Hrows' sched m (map ECall rows) [] R0)
    as [(m' & thr & ord & E & R)|(E & before & i & after & m' & thr & ord & Es & E' & R & Hi & F)].
  - left. exists m', thr, (n0 + Z.of_nat (length ord)). split; [exact E|]. apply G, R.
  - right. split; [exact E|]. exists before, i, after, m', thr. split; [exact Es|]. split; [exact E'|]. split; [exact Hi|]. rewrite <- F. apply G, R.
Qed.
