(** Proofs about stacks of memory resources. *)
From Verif Require Import Base BaseLemmas Stack.
From Coq Require Import Permutation.

(** Requests that every resource of a stack can be given. *)
Definition req_ok (size align : Z) : Prop := 0 < size <= 2 ^ 63 /\ pow2 align /\ align <= 16.

(** Calls that keep to the rules: legal requests, and only live blocks are freed. *)
Definition call_ok (l : list uevent) (e : uevent) : Prop :=
  match e with
  | UAlloc s a _ => req_ok s a
  | UFree p s a => In (mkBlock p s a) (ulive l)
  end.
Fixpoint calls_ok (l : list uevent) : Prop :=
  match l with [] => True | e :: l' => call_ok l' e /\ calls_ok l' end.

Lemma calls_frees l : calls_ok l -> frees_ok l.
Proof. induction l as [|[s a r|p s a] l IH]; cbn [calls_ok call_ok frees_ok]; tauto. Qed.

Lemma calls_live_pos l b : calls_ok l -> In b (ulive l) -> 0 < bsize b.
Proof.
  induction l as [|[s a [p|]|p s a] l IH]; cbn [calls_ok call_ok ulive]; intros H Hb; [destruct Hb| | |].
  - destruct H as ((H1 & _) & H2). destruct Hb as [<-|Hb]; [cbn [bsize]; lia|auto].
  - destruct H as (_ & H2). auto.
  - destruct H as (_ & H2). apply IH; [exact H2|]. eapply remove1_in; exact Hb.
Qed.

Definition one_call (l l' : list uevent) : Prop := l' = l \/ exists e, l' = e :: l /\ call_ok l e.

Definition one_free (l l' : list uevent) : Prop :=
  l' = l \/ exists p s a, l' = UFree p s a :: l /\ In (mkBlock p s a) (ulive l).

(** What a resource guarantees, with an invariant of its state, its upstream log and the
    blocks that its user holds. *)
Record correct_with (R : resource) (Inv : rstate R -> world -> list block -> Prop) : Prop := {
  k_alog : forall s w size align r s' w', r_alloc R s w size align = (r, s', w') ->
    exists n, ulog w' = n ++ ulog w;
  k_flog : forall s w p size align r s' w', r_free R s w p size align = (r, s', w') ->
    exists n, ulog w' = n ++ ulog w;
  k_dlog : forall s w, exists n, ulog (r_destroy R s w) = n ++ ulog w;
  k_init : forall s w, r_init R s w ->
    one_call [] (ulog w) /\ (upstream_ok (ulog w) -> Inv s w []);
  k_call : forall s w live size align r s' w',
    Inv s w live -> upstream_ok (ulog w) -> req_ok size align ->
    r_alloc R s w size align = (r, s', w') -> one_call (ulog w) (ulog w');
  k_alloc : forall s w live size align r s' w',
    Inv s w live -> upstream_ok (ulog w) -> req_ok size align ->
    r_alloc R s w size align = (r, s', w') -> upstream_ok (ulog w') ->
    (exists p, r = Ret p /\ Inv s' w' (mkBlock p size align :: live)) \/
    (r = Throw bad_alloc /\ Inv s' w' live);
  k_free : forall s w live b,
    Inv s w live -> upstream_ok (ulog w) -> In b live ->
    exists s' w', r_free R s w (bptr b) (bsize b) (balign b) = (Ret tt, s', w') /\
      one_free (ulog w) (ulog w') /\ Inv s' w' (remove1 b live);
  k_live : forall s w live,
    Inv s w live -> upstream_ok (ulog w) ->
    pairwise_disjoint live /\
    forall b, In b live -> 0 < bptr b /\ (balign b | bptr b) /\ 0 < bsize b /\
      exists u, In u (ulive (ulog w)) /\ inside b u;
  k_destroy : forall s w,
    Inv s w [] -> upstream_ok (ulog w) -> calls_ok (ulog w) ->
    calls_ok (ulog (r_destroy R s w)) /\ ulive (ulog (r_destroy R s w)) = [] }.

Definition correct (R : resource) : Prop := exists Inv, correct_with R Inv.

Lemma upstream_ok_app n l : upstream_ok (n ++ l) -> upstream_ok l.
Proof. induction n as [|e n IH]; cbn [app]; auto. intros H. apply IH. eapply upstream_ok_tail; exact H. Qed.
Lemma calls_ok_app n l : calls_ok (n ++ l) -> calls_ok l.
Proof. induction n as [|e n IH]; cbn [app calls_ok]; auto. intros (_ & H). auto. Qed.

Lemma one_free_call l l' : one_free l l' -> one_call l l'.
Proof. intros [->|(p & s & a & -> & H)]; [left; reflexivity|right]. eexists. split; [reflexivity|exact H]. Qed.
Lemma one_call_ext l l' : one_call l l' -> exists n, l' = n ++ l.
Proof. intros [->|(e & -> & _)]; [exists []|exists [e]]; reflexivity. Qed.


(** Earlier calls were served by earlier states of the stack. *)
Lemma runs_tail R e l s w : correct R -> runs R (e :: l) s w ->
  exists s0 w0 n, runs R l s0 w0 /\ ulog w = n ++ ulog w0.
Proof.
  intros (Inv & C) H. inversion H; subst; eexists _, _.
  - edestruct (k_alog _ _ C) as (n & Hn); [eassumption|]. exists n. split; [eassumption|exact Hn].
  - edestruct (k_alog _ _ C) as (n & Hn); [eassumption|]. exists n. split; [eassumption|exact Hn].
  - edestruct (k_flog _ _ C) as (n & Hn); [eassumption|]. exists n. split; [eassumption|exact Hn].
Qed.

Lemma stacked_tail rs : Forall correct rs -> forall n l bottom, stacked rs (n ++ l) bottom ->
  exists bottom' m, stacked rs l bottom' /\ bottom = m ++ bottom'.
Proof.
  induction 1 as [|R rs HR HF IH]; intros n l bottom H.
  - cbn [stacked] in *. subst. exists l, n. auto.
  - revert bottom H. induction n as [|e n IHn]; intros bottom H; cbn [app] in H.
    + exists bottom, []. auto.
    + cbn [stacked] in H. destruct H as (s & w & H1 & H2).
      destruct (runs_tail _ _ _ _ _ HR H1) as (s0 & w0 & k & K1 & K2). rewrite K2 in H2.
      destruct (IH _ _ _ H2) as (b1 & m1 & M1 & M2).
      destruct (IHn b1) as (b2 & m2 & N1 & N2); [exists s0, w0; auto|].
      exists b2, (m1 ++ m2). split; [exact N1|]. rewrite M2, N2, app_assoc. reflexivity.
Qed.

Section Layer.
  Variable R : resource.
  Variable Inv : rstate R -> world -> list block -> Prop.
  Hypothesis C : correct_with R Inv.
  (** [up]: what the stack below guarantees about the calls made to it. *)
  Variable up : list uevent -> Prop.
  Hypothesis up_tail : forall n l, up (n ++ l) -> up l.
  Hypothesis up_ok : forall l, up l -> calls_ok l -> upstream_ok l.

  Lemma one_call_calls l l' : one_call l l' -> calls_ok l -> calls_ok l'.
  Proof. intros [->|(e & -> & He)] H; cbn [calls_ok]; auto. Qed.

  (** A block added to the live ones by a call that returned. *)
  Lemma new_block s w p sz al top : Inv s w (mkBlock p sz al :: ulive top) -> upstream_ok (ulog w) ->
    0 < p /\ p + sz < 2 ^ 64 /\ (al | p) /\ (forall c, In c (ulive top) -> ~ overlap (mkBlock p sz al) c).
  Proof.
    intros HI HU. destruct (k_live _ _ C _ _ _ HI HU) as ((D & _) & HB).
    destruct (HB _ (or_introl eq_refl)) as (B1 & B2 & B3 & u & Hu & Hin). cbn [bptr bsize balign] in *.
    destruct (ulive_props _ _ HU Hu) as (U1 & U2 & U3). apply inside_iff in Hin; cbn [bptr bsize] in *; [|lia].
    split; [lia|]. split; [lia|]. split; [exact B2|]. exact D.
  Qed.

  Lemma runs_inv top s w : runs R top s w -> calls_ok top -> up (ulog w) ->
    calls_ok (ulog w) /\ upstream_ok (ulog w) /\ Inv s w (ulive top) /\ upstream_ok top.
  Proof.
    intros H. induction H as [s w H|l s w sz al p s' w' H IH E|l s w sz al s' w' H IH E|l s w p sz al s' w' H IH E];
      cbn [calls_ok ulive upstream_ok]; intros HC HU.
    - destruct (k_init _ _ C _ _ H) as (H1 & H2).
      pose proof (one_call_calls _ _ H1 Logic.I) as CO. pose proof (up_ok _ HU CO). auto.
    - destruct HC as (HR & HC). cbn [call_ok] in HR. destruct (k_alog _ _ C _ _ _ _ _ _ _ E) as (n & Hn).
      destruct (IH HC) as (A1 & A2 & A3 & A4); [apply (up_tail n); congruence|].
      pose proof (one_call_calls _ _ (k_call _ _ C _ _ _ _ _ _ _ _ A3 A2 HR E) A1) as CO.
      pose proof (up_ok _ HU CO) as UO.
      destruct (k_alloc _ _ C _ _ _ _ _ _ _ _ A3 A2 HR E UO) as [(q & [= <-] & HI)|([=] & _)].
      destruct (new_block _ _ _ _ _ _ HI UO) as (N1 & N2 & N3 & N4). auto 9.
    - destruct HC as (HR & HC). cbn [call_ok] in HR. destruct (k_alog _ _ C _ _ _ _ _ _ _ E) as (n & Hn).
      destruct (IH HC) as (A1 & A2 & A3 & A4); [apply (up_tail n); congruence|].
      pose proof (one_call_calls _ _ (k_call _ _ C _ _ _ _ _ _ _ _ A3 A2 HR E) A1) as CO.
      pose proof (up_ok _ HU CO) as UO.
      destruct (k_alloc _ _ C _ _ _ _ _ _ _ _ A3 A2 HR E UO) as [(q & [=] & _)|(_ & HI)]. auto.
    - destruct HC as (HR & HC). cbn [call_ok] in HR. destruct (k_flog _ _ C _ _ _ _ _ _ _ _ E) as (n & Hn).
      destruct (IH HC) as (A1 & A2 & A3 & A4); [apply (up_tail n); congruence|].
      destruct (k_free _ _ C _ _ _ _ A3 A2 HR) as (s1 & w1 & E1 & K & HI). cbn [bptr bsize balign] in E1.
      rewrite E in E1. injection E1 as <- <-.
      pose proof (one_call_calls _ _ (one_free_call _ _ K) A1) as CO. pose proof (up_ok _ HU CO) as UO. auto.
  Qed.
End Layer.

(** The stack below as seen by a layer. *)
Definition below (rs : list resource) (l : list uevent) : Prop :=
  exists bottom, stacked rs l bottom /\ upstream_ok bottom.

Lemma below_tail rs : Forall correct rs -> forall n l, below rs (n ++ l) -> below rs l.
Proof.
  intros HF n l (b & H1 & H2). destruct (stacked_tail rs HF n l b H1) as (b' & m & B1 & ->).
  exists b'. split; [exact B1|]. eapply upstream_ok_app; exact H2.
Qed.

Theorem stack_correct rs : Forall correct rs -> forall top bottom,
  stacked rs top bottom -> calls_ok top -> upstream_ok bottom ->
  upstream_ok top /\ calls_ok bottom /\
  forall b, In b (ulive top) -> exists u, In u (ulive bottom) /\ inside b u.
Proof.
  induction 1 as [|R rs HR HF IH]; intros top bottom HS HC HU.
  - cbn [stacked] in HS. subst. split; [exact HU|]. split; [exact HC|]. intros b Hb. exists b. split; [exact Hb|]. intros x Hx. exact Hx.
  - cbn [stacked] in HS. destruct HS as (s & w & H1 & H2). pose proof HR as (Inv & C).
    assert (UO : forall l, below rs l -> calls_ok l -> upstream_ok l).
    { intros l (b & B1 & B2) B3. apply (IH l b B1 B3 B2). }
    destruct (runs_inv R Inv C (below rs) (below_tail rs HF) UO _ _ _ H1 HC) as (A1 & A2 & A3 & A4); [exists bottom; auto|].
    destruct (IH _ _ H2 A1 HU) as (I1 & I2 & I3). split; [exact A4|]. split; [exact I2|].
    intros b Hb. destruct (k_live _ _ C _ _ _ A3 A2) as (_ & K). destruct (K b Hb) as (_ & _ & _ & u & Hu & Hin).
    destruct (I3 u Hu) as (v & Hv & Hin2). exists v. split; [exact Hv|]. intros x Hx. apply Hin2, Hin, Hx.
Qed.

Lemma below_ok rs : Forall correct rs -> forall l, below rs l -> calls_ok l -> upstream_ok l.
Proof. intros HF l (b & B1 & B2) B3. apply (stack_correct rs HF l b B1 B3 B2). Qed.

(** No call of a layer is undefined, whatever the stack below. *)
Theorem stack_defined R rs : correct R -> Forall correct rs -> forall top s w,
  runs R top s w -> calls_ok top ->
  (forall size align r s' w' bottom, req_ok size align ->
     r_alloc R s w size align = (r, s', w') -> stacked rs (ulog w') bottom -> upstream_ok bottom ->
     (exists p, r = Ret p) \/ r = Throw bad_alloc) /\
  (forall b bottom, In b (ulive top) -> stacked rs (ulog w) bottom -> upstream_ok bottom ->
     exists s' w', r_free R s w (bptr b) (bsize b) (balign b) = (Ret tt, s', w')).
Proof.
  intros (Inv & C) HF top s w H HC.
  assert (G : below rs (ulog w) -> calls_ok (ulog w) /\ upstream_ok (ulog w) /\ Inv s w (ulive top) /\ upstream_ok top).
  { intros B. eapply (runs_inv R Inv C (below rs) (below_tail rs HF) (below_ok rs HF)); eauto. }
  split.
  - intros size align r s' w' bottom HR E HS HU. destruct (k_alog _ _ C _ _ _ _ _ _ _ E) as (n & Hn).
    assert (B' : below rs (ulog w')) by (exists bottom; auto).
    destruct G as (A1 & A2 & A3 & A4); [apply (below_tail rs HF n); congruence|].
    pose proof (one_call_calls _ _ (k_call _ _ C _ _ _ _ _ _ _ _ A3 A2 HR E) A1) as CO.
    pose proof (below_ok rs HF _ B' CO) as UO.
    destruct (k_alloc _ _ C _ _ _ _ _ _ _ _ A3 A2 HR E UO) as [(q & -> & _)|(-> & _)]; eauto.
  - intros b bottom Hb HS HU. destruct G as (A1 & A2 & A3 & A4); [exists bottom; auto|].
    destruct (k_free _ _ C _ _ _ _ A3 A2 Hb) as (s1 & w1 & E1 & _). eauto.
Qed.

(** Destruction from the top to the bottom. *)
Lemma destroyed_before rs : Forall correct rs -> forall top bottom, destroyed rs top bottom ->
  exists bottom' m, stacked rs top bottom' /\ bottom = m ++ bottom'.
Proof.
  induction 1 as [|R rs HR HF IH]; intros top bottom H; cbn [destroyed] in H.
  - subst. exists bottom, []. split; reflexivity.
  - destruct H as (s & w & H1 & H2). pose proof HR as (Inv & C).
    destruct (IH _ _ H2) as (b1 & m1 & M1 & M2). destruct (k_dlog _ _ C s w) as (n & Hn). rewrite Hn in M1.
    destruct (stacked_tail rs HF _ _ _ M1) as (b2 & m2 & N1 & N2).
    exists b2, (m1 ++ m2). split; [exists s, w; auto|]. rewrite M2, N2, app_assoc. reflexivity.
Qed.

Theorem stack_released rs : Forall correct rs -> forall top bottom,
  destroyed rs top bottom -> calls_ok top -> ulive top = [] -> upstream_ok bottom ->
  calls_ok bottom /\ ulive bottom = [].
Proof.
  induction 1 as [|R rs HR HF IH]; intros top bottom HD HC HL HU.
  - cbn [destroyed] in HD. subst. auto.
  - pose proof (Forall_cons _ HR HF) as HFF.
    cbn [destroyed] in HD. destruct HD as (s & w & H1 & H2). pose proof HR as (Inv & C).
    destruct (destroyed_before rs HF _ _ H2) as (b1 & m1 & M1 & M2). destruct (k_dlog _ _ C s w) as (n & Hn).
    assert (B : below rs (ulog w)).
    { apply (below_tail rs HF n). rewrite <- Hn. exists b1. split; [exact M1|]. rewrite M2 in HU. eapply upstream_ok_app; exact HU. }
    destruct (runs_inv R Inv C (below rs) (below_tail rs HF) (below_ok rs HF) _ _ _ H1 HC B) as (A1 & A2 & A3 & A4).
    rewrite HL in A3. destruct (k_destroy _ _ C _ _ A3 A2 A1) as (D1 & D2).
    exact (IH _ _ H2 D1 D2 HU).
Qed.

(** ** Stacks are never stuck *)
(** How a resource uses its upstream: at most one request for each allocation, which does not
    depend on what upstream will answer. *)
Record asking (R : resource) : Prop := {
  q_init : forall s l orc orc', r_init R s (mkWorld l orc) -> (forall i, (i < length l)%nat -> orc' i = orc i) ->
    r_init R s (mkWorld l orc');
  q_alloc : forall s l size align,
    (exists r s', forall orc, r_alloc R s (mkWorld l orc) size align = (r, s', mkWorld l orc)) \/
    (exists sz al f, forall orc, r_alloc R s (mkWorld l orc) size align =
       (f (orc (length l)), mkWorld (UAlloc sz al (orc (length l)) :: l) orc));
  q_free : forall s l p size align, exists r s' n, forall orc,
    r_free R s (mkWorld l orc) p size align = (r, s', mkWorld (n ++ l) orc) }.

Lemma runs_orc R : asking R -> forall top s w, runs R top s w -> forall orc',
  (forall i, (i < length (ulog w))%nat -> orc' i = uorc w i) -> runs R top s (mkWorld (ulog w) orc').
Proof.
  intros A top s w H. induction H as [s w H|l s w sz al p s' w' H IH E|l s w sz al s' w' H IH E|l s w p sz al s' w' H IH E];
    intros orc' HA.
  - apply runs_init. destruct w as [lg orc]. eapply q_init; eauto.
  - destruct w as [lg orc]. cbn [ulog uorc] in IH. destruct (q_alloc _ A s lg sz al) as [(r & s1 & Q)|(a & b & f & Q)];
      rewrite Q in E.
    + injection E as -> -> <-. cbn [ulog uorc] in *. eapply runs_alloc; [exact (IH _ HA)|apply Q].
    + destruct (f (orc (length lg))) as [r s1] eqn:EF. injection E as -> -> <-. cbn [ulog uorc length] in *.
      eapply runs_alloc; [apply IH; intros i Hi; apply HA; lia|]. rewrite Q, (HA (length lg)), EF by lia. reflexivity.
  - destruct w as [lg orc]. cbn [ulog uorc] in IH. destruct (q_alloc _ A s lg sz al) as [(r & s1 & Q)|(a & b & f & Q)];
      rewrite Q in E.
    + injection E as -> -> <-. cbn [ulog uorc] in *. eapply runs_throw; [exact (IH _ HA)|apply Q].
    + destruct (f (orc (length lg))) as [r s1] eqn:EF. injection E as -> -> <-. cbn [ulog uorc length] in *.
      eapply runs_throw; [apply IH; intros i Hi; apply HA; lia|]. rewrite Q, (HA (length lg)), EF by lia. reflexivity.
  - destruct w as [lg orc]. cbn [ulog uorc] in IH. destruct (q_free _ A s lg p sz al) as (r & s1 & n & Q).
    rewrite Q in E. injection E as -> -> <-. cbn [ulog uorc] in *. rewrite app_length in HA.
    eapply runs_free; [apply IH; intros i Hi; apply HA; lia|apply Q].
Qed.

Theorem stack_progress rs (answer : list uevent -> Z -> Z -> option Z) :
  Forall correct rs -> Forall asking rs ->
  (forall l s a, upstream_ok l -> req_ok s a -> upstream_ok (UAlloc s a (answer l s a) :: l)) ->
  forall top bottom size align, stacked rs top bottom -> calls_ok top -> upstream_ok bottom -> req_ok size align ->
  exists res bottom', stacked rs (UAlloc size align res :: top) bottom' /\
    (bottom' = bottom \/ exists s a, req_ok s a /\ bottom' = UAlloc s a (answer bottom s a) :: bottom).
Proof.
  intros HF HA HO. revert HA. induction HF as [|R rs HR HF IH]; intros HA top bottom size align HS HC HU HQ.
  - cbn [stacked] in *. subst. eexists _, _. split; [reflexivity|]. right. eauto.
  - inversion HA as [|? ? QR QF]; subst. cbn [stacked] in HS. destruct HS as (s & w & H1 & H2).
    pose proof HR as (Inv & C).
    assert (B : below rs (ulog w)) by (exists bottom; auto).
    destruct (runs_inv R Inv C (below rs) (below_tail rs HF) (below_ok rs HF) _ _ _ H1 HC B) as (A1 & A2 & A3 & A4).
    destruct w as [lg orc]. cbn [ulog] in *.
    destruct (q_alloc _ QR s lg size align) as [(r & s1 & Q)|(sz & al & f & Q)].
    + destruct (k_alloc _ _ C _ _ _ _ _ _ _ _ A3 A2 HQ (Q orc) A2) as [(p & -> & _)|(-> & _)].
      * exists (Some p), bottom. split; [|auto]. exists s1, (mkWorld lg orc). split; [eapply runs_alloc; [exact H1|apply Q]|exact H2].
      * exists None, bottom. split; [|auto]. exists s1, (mkWorld lg orc). split; [eapply runs_throw; [exact H1|apply Q]|exact H2].
    + assert (RQ : req_ok sz al).
      { pose proof (Q orc) as Q0. destruct (f (orc (length lg))) as [r s1].
        destruct (k_call _ _ C _ _ _ _ _ _ _ _ A3 A2 HQ Q0) as [E|(e & E & HE)]; cbn [ulog] in E.
        - apply (f_equal (@length uevent)) in E. cbn [length] in E. lia.
        - injection E as <-. exact HE. }
      destruct (IH QF _ _ sz al H2 A1 HU RQ) as (res & bottom' & S1 & S2).
      assert (HU' : upstream_ok bottom') by (destruct S2 as [->|(s0 & a0 & R0 & ->)]; auto).
      set (orc' := fun i => if Nat.eqb i (length lg) then res else orc i).
      assert (O1 : orc' (length lg) = res) by (unfold orc'; rewrite Nat.eqb_refl; reflexivity).
      assert (H1' : runs R top s (mkWorld lg orc')).
      { apply (runs_orc R QR _ _ _ H1). intros i Hi. unfold orc'. cbn [ulog uorc] in *.
        destruct (Nat.eqb_spec i (length lg)); [lia|reflexivity]. }
      assert (B2 : below rs lg) by (exists bottom; auto).
      destruct (runs_inv R Inv C (below rs) (below_tail rs HF) (below_ok rs HF) _ _ _ H1' HC B2) as (_ & _ & A3' & _).
      pose proof (Q orc') as Q1. rewrite O1 in Q1. destruct (f res) as [r s1].
      assert (UN : upstream_ok (UAlloc sz al res :: lg)).
      { apply (below_ok rs HF); [exists bottom'; auto|]. cbn [calls_ok call_ok]. auto. }
      destruct (k_alloc _ _ C _ _ _ _ _ _ _ _ A3' A2 HQ Q1 UN) as [(p & -> & _)|(-> & _)].
      * exists (Some p), bottom'. split; [|exact S2]. eexists s1, _. split; [eapply runs_alloc; [exact H1'|exact Q1]|exact S1].
      * exists None, bottom'. split; [|exact S2]. eexists s1, _. split; [eapply runs_throw; [exact H1'|exact Q1]|exact S1].
Qed.

Theorem stack_free_progress rs : Forall correct rs ->
  forall top bottom b, stacked rs top bottom -> calls_ok top -> upstream_ok bottom -> In b (ulive top) ->
  exists bottom', stacked rs (UFree (bptr b) (bsize b) (balign b) :: top) bottom' /\
    (bottom' = bottom \/ exists u, In u (ulive bottom) /\ bottom' = UFree (bptr u) (bsize u) (balign u) :: bottom).
Proof.
  induction 1 as [|R rs HR HF IH]; intros top bottom b HS HC HU HB.
  - cbn [stacked] in *. subst. eexists. split; [reflexivity|]. right. eauto.
  - cbn [stacked] in HS. destruct HS as (s & w & H1 & H2). pose proof HR as (Inv & C).
    assert (B : below rs (ulog w)) by (exists bottom; auto).
    destruct (runs_inv R Inv C (below rs) (below_tail rs HF) (below_ok rs HF) _ _ _ H1 HC B) as (A1 & A2 & A3 & A4).
    destruct (k_free _ _ C _ _ _ _ A3 A2 HB) as (s' & w' & E & OC & HI).
    assert (RN : runs R (UFree (bptr b) (bsize b) (balign b) :: top) s' w') by (eapply runs_free; eauto).
    destruct OC as [OC|(p & sz & al & OC & HE)].
    + exists bottom. split; [|auto]. exists s', w'. split; [exact RN|]. rewrite OC. exact H2.
    + destruct (IH _ _ (mkBlock p sz al) H2 A1 HU HE) as (bottom' & S1 & S2).
      exists bottom'. split; [|exact S2]. exists s', w'. split; [exact RN|]. rewrite OC. exact S1.
Qed.
