(** Proofs about graphs of memory resources. *)
From Verif Require Import Base BaseLemmas Forwarding ForwardingProofs Stack StackProofs Graph.
From Coq Require Import Permutation.

(** ** Tagged logs *)
Definition tcall_ok (l : tlog) (e : nat * uevent) : Prop :=
  match snd e with
  | UAlloc s a _ => req_ok s a
  | UFree p s a => In (fst e, mkBlock p s a) (mlive l)
  end.
Fixpoint tcalls_ok (l : tlog) : Prop :=
  match l with [] => True | e :: l' => tcall_ok l' e /\ tcalls_ok l' end.
(** All blocks that are live, of whatever resource, are as [upstream_ok] says. *)
Definition tok (l : tlog) : Prop := upstream_ok (map snd l).

Lemma tok_app n l : tok (n ++ l) -> tok l.
Proof. unfold tok. rewrite map_app. apply upstream_ok_app. Qed.
Lemma tcalls_ok_app n l : tcalls_ok (n ++ l) -> tcalls_ok l.
Proof. induction n as [|e n IH]; cbn [app tcalls_ok]; tauto. Qed.

Lemma tremove1_perm b l : In b l -> Permutation l (b :: tremove1 b l).
Proof.
  induction l as [|d l IH]; cbn [tremove1 In]; [tauto|].
  destruct (tblock_eq_dec b d) as [->|Hne]; [reflexivity|]. intros [->|H]; [congruence|].
  rewrite (IH H) at 1. apply perm_swap.
Qed.

Lemma live_untag l : tcalls_ok l -> Permutation (ulive (map snd l)) (map snd (mlive l)).
Proof.
  induction l as [|[i [s a [p|]|p s a]] l IH]; cbn [tcalls_ok map snd ulive mlive]; intros H; [constructor| | |].
  - constructor. apply IH. tauto.
  - apply IH. tauto.
  - destruct H as (H1 & H2). unfold tcall_ok in H1. cbn [fst snd] in H1. specialize (IH H2).
    apply (Permutation_cons_inv (a := mkBlock p s a)).
    rewrite <- (remove1_perm (mkBlock p s a)).
    + rewrite IH. rewrite (tremove1_perm _ _ H1) at 1. reflexivity.
    + rewrite IH. apply (in_map snd) in H1. exact H1.
Qed.

Lemma tok_disjoint l : tcalls_ok l -> tok l -> pairwise_disjoint (map snd (mlive l)).
Proof. intros H1 H2. eapply pairwise_disjoint_perm; [apply live_untag; exact H1|]. apply ulive_disjoint. exact H2. Qed.
Lemma tok_props l x : tcalls_ok l -> tok l -> In x (mlive l) ->
  0 < bptr (snd x) /\ bptr (snd x) + bsize (snd x) < 2 ^ 64 /\ (balign (snd x) | bptr (snd x)).
Proof.
  intros H1 H2 Hx. apply (ulive_props (map snd l)); [exact H2|]. rewrite (live_untag l H1). apply in_map. exact Hx.
Qed.
Lemma tlive_pos l x : tcalls_ok l -> In x (mlive l) -> 0 < bsize (snd x).
Proof.
  induction l as [|[i [s a [p|]|p s a]] l IH]; cbn [tcalls_ok mlive]; intros H Hx; [destruct Hx| | |].
  - destruct H as (H1 & H2). unfold tcall_ok in H1. cbn [snd] in H1. destruct H1 as (H1 & _).
    destruct Hx as [<-|Hx]; [cbn [snd bsize]; lia|auto].
  - apply IH; tauto.
  - apply IH; [tauto|]. eapply tremove1_in; exact Hx.
Qed.

Lemma tok_alloc l i s a p : tcalls_ok l ->
  (tok ((i, UAlloc s a (Some p)) :: l) <->
   0 < p /\ p + s < 2 ^ 64 /\ (a | p) /\ (forall x, In x (mlive l) -> ~ overlap (mkBlock p s a) (snd x)) /\ tok l).
Proof.
  intros H. unfold tok. cbn [map snd upstream_ok]. pose proof (live_untag l H) as P.
  assert (Q : (forall c, In c (ulive (map snd l)) -> ~ overlap (mkBlock p s a) c) <-> (forall x, In x (mlive l) -> ~ overlap (mkBlock p s a) (snd x))).
  { split.
    - intros G x Hx. apply G. rewrite P. apply in_map. exact Hx.
    - intros G c Hc. rewrite P in Hc. apply in_map_iff in Hc. destruct Hc as (x & <- & Hx). auto. }
  tauto.
Qed.

(** The same calls after two logs, one of which has more live blocks. *)
Lemma mlive_ext e l l' others : tcall_ok l e -> Permutation (mlive l') (mlive l ++ others) ->
  tcall_ok l' e /\ Permutation (mlive (e :: l')) (mlive (e :: l) ++ others).
Proof.
  destruct e as [i [s a [p|]|p s a]]; unfold tcall_ok; cbn [fst snd mlive]; intros H P.
  - split; [exact H|]. cbn [app]. constructor. exact P.
  - auto.
  - assert (IN : In (i, mkBlock p s a) (mlive l')) by (rewrite P; apply in_or_app; auto). split; [exact IN|].
    apply (Permutation_cons_inv (a := (i, mkBlock p s a))). rewrite <- (tremove1_perm _ _ IN), P.
    rewrite (tremove1_perm _ _ H) at 1. reflexivity.
Qed.
Lemma calls_ext n l l' others : tcalls_ok (n ++ l) -> tcalls_ok l' -> Permutation (mlive l') (mlive l ++ others) ->
  tcalls_ok (n ++ l') /\ Permutation (mlive (n ++ l')) (mlive (n ++ l) ++ others).
Proof.
  intros H H' P. induction n as [|e n IH]; cbn [app] in *; [auto|]. cbn [tcalls_ok] in H |- *.
  destruct IH as (I1 & I2); [tauto|]. destruct (mlive_ext e _ _ _ (proj1 H) I2) as (A & B). auto.
Qed.
Lemma tok_ext n l l' others : tcalls_ok (n ++ l) -> tcalls_ok l' -> Permutation (mlive l') (mlive l ++ others) ->
  tok l -> tok (n ++ l') -> tok (n ++ l).
Proof.
  intros H H' P T T'. induction n as [|e n IH]; cbn [app] in *; [exact T|]. cbn [tcalls_ok] in H.
  specialize (IH (proj2 H)). destruct (calls_ext n l l' others (proj2 H) H' P) as (C & Q).
  destruct e as [i [s a [p|]|p s a]].
  - apply tok_alloc in T'; [|exact C]. apply tok_alloc; [tauto|]. destruct T' as (T1 & T2 & T3 & T4 & T5).
    do 3 (split; [assumption|]). split; [|auto]. intros x Hx. apply T4. rewrite Q. apply in_or_app. auto.
  - apply IH. exact T'.
  - apply IH. exact T'.
Qed.

(** ** What a node guarantees *)
Definition is_free (e : nat * uevent) : Prop := match snd e with UFree _ _ _ => True | _ => False end.
Record ncorrect_with (N : node) (Inv : nstate N -> mworld -> list block -> Prop) : Prop := {
  g_init : forall s w, n_init N s w -> tcalls_ok (mlog w) /\ (tok (mlog w) -> Inv s w []);
  g_call : forall s w live size align r s' w',
    Inv s w live -> tok (mlog w) -> tcalls_ok (mlog w) -> req_ok size align ->
    n_alloc N s w size align = (r, s', w') -> exists n, mlog w' = n ++ mlog w /\ tcalls_ok (mlog w');
  g_alloc : forall s w live size align r s' w',
    Inv s w live -> tok (mlog w) -> tcalls_ok (mlog w) -> req_ok size align ->
    n_alloc N s w size align = (r, s', w') -> tok (mlog w') ->
    (exists p, r = Ret p /\ Inv s' w' (mkBlock p size align :: live)) \/
    (r = Throw bad_alloc /\ Inv s' w' live);
  g_free : forall s w live b,
    Inv s w live -> tok (mlog w) -> tcalls_ok (mlog w) -> In b live ->
    exists s' w' n, n_free N s w (bptr b) (bsize b) (balign b) = (Ret tt, s', w') /\
      mlog w' = n ++ mlog w /\ tcalls_ok (mlog w') /\ Forall is_free n /\ (tok (mlog w') -> Inv s' w' (remove1 b live));
  g_live : forall s w live,
    Inv s w live -> tok (mlog w) -> tcalls_ok (mlog w) ->
    pairwise_disjoint live /\
    forall b, In b live -> 0 < bptr b /\ (balign b | bptr b) /\ 0 < bsize b /\
      exists u, In u (mlive (mlog w)) /\ inside b (snd u);
  g_destroy : forall s w,
    Inv s w [] -> tok (mlog w) -> tcalls_ok (mlog w) ->
    exists n, mlog (n_destroy N s w) = n ++ mlog w /\ tcalls_ok (mlog (n_destroy N s w)) /\ mlive (mlog (n_destroy N s w)) = [] }.
Definition ncorrect (N : node) : Prop := exists Inv, ncorrect_with N Inv.

Lemma remove1_of_perm k b live others (l : list tblock) : Permutation l (map (pair k) live ++ others) -> In b live ->
  Permutation (tremove1 (k, b) l) (map (pair k) (remove1 b live) ++ others).
Proof.
  intros P Hb. apply (Permutation_cons_inv (a := (k, b))). rewrite <- tremove1_perm.
  - rewrite P. rewrite (remove1_perm b live Hb) at 1. reflexivity.
  - rewrite P. apply in_or_app. left. apply in_map. exact Hb.
Qed.
Lemma remove1_of_perm' k b live others (l : list tblock) : Permutation l (live ++ others) -> In (k, b) others ->
  Permutation (tremove1 (k, b) l) (live ++ tremove1 (k, b) others).
Proof.
  intros P Hb. apply (Permutation_cons_inv (a := (k, b))). rewrite <- tremove1_perm.
  - rewrite P. rewrite (tremove1_perm _ _ Hb) at 1. symmetry. apply Permutation_middle.
  - rewrite P. apply in_or_app. auto.
Qed.

Lemma overlap_inside b c u : inside c u -> overlap b c -> overlap b u.
Proof. intros H (x & H1 & H2). exists x. split; [exact H1|apply H, H2]. Qed.
Lemma overlap_sym b c : overlap b c -> overlap c b.
Proof. intros (x & H1 & H2). exists x. auto. Qed.

Section Serve.
  Variable k : nat.
  Variable N : node.
  Variable Inv : nstate N -> mworld -> list block -> Prop.
  Hypothesis C : ncorrect_with N Inv.
  (** [up]: what the rest of the graph guarantees about the calls made to it. *)
  Variable up : tlog -> Prop.
  Hypothesis up_tail : forall n l, up (n ++ l) -> up l.
  Hypothesis up_ok : forall l, up l -> tcalls_ok l -> tok l.

  Record served_inv (top : tlog) (s : nstate N) (w : mworld) (out : tlog) (live : list block) (others : list tblock) : Prop := {
    i_out : tcalls_ok out; i_ook : tok out; i_w : tcalls_ok (mlog w); i_wok : tok (mlog w);
    i_pout : Permutation (mlive out) (mlive (mlog w) ++ others);
    i_ptop : Permutation (mlive top) (map (pair k) live ++ others);
    i_tags : forall x, In x others -> fst x <> k;
    i_inv : Inv s w live; i_top : tok top }.

  (** Every block of the user is inside a block of the new log. *)
  Lemma top_inside top s w out live others x : served_inv top s w out live others -> In x (mlive top) ->
    exists u, In u (mlive out) /\ inside (snd x) (snd u).
  Proof.
    intros I Hx. rewrite (i_ptop _ _ _ _ _ _ I) in Hx. apply in_app_or in Hx. destruct Hx as [Hx|Hx].
    - apply in_map_iff in Hx. destruct Hx as (b & <- & Hb). cbn [snd].
      destruct (g_live _ _ C _ _ _ (i_inv _ _ _ _ _ _ I) (i_wok _ _ _ _ _ _ I) (i_w _ _ _ _ _ _ I)) as (_ & G).
      destruct (G b Hb) as (_ & _ & _ & u & Hu & Hin). exists u. split; [|exact Hin].
      rewrite (i_pout _ _ _ _ _ _ I). apply in_or_app. auto.
    - exists x. split; [rewrite (i_pout _ _ _ _ _ _ I); apply in_or_app; auto|]. intros y Hy. exact Hy.
  Qed.

  Lemma served_step_alloc top s w out live others size align r s' w' n :
    served_inv top s w out live others -> tcalls_ok top -> req_ok size align ->
    n_alloc N s w size align = (r, s', w') -> mlog w' = n ++ mlog w -> up (n ++ out) ->
    (exists p, r = Ret p /\ served_inv ((k, UAlloc size align (Some p)) :: top) s' w' (n ++ out) (mkBlock p size align :: live) others) \/
    (r = Throw bad_alloc /\ served_inv ((k, UAlloc size align None) :: top) s' w' (n ++ out) live others).
  Proof.
    intros [I1 I2 I3 I4 I5 I6 I7 I8 I9] HT HR E Hn HU.
    destruct (g_call _ _ C _ _ _ _ _ _ _ _ I8 I4 I3 HR E) as (n' & _ & CW). rewrite Hn in CW.
    destruct (calls_ext n (mlog w) out others CW I1 I5) as (CO & PO).
    pose proof (up_ok _ HU CO) as TO. pose proof (tok_ext n (mlog w) out others CW I1 I5 I4 TO) as TW.
    rewrite <- Hn in CW, TW, PO.
    destruct (g_alloc _ _ C _ _ _ _ _ _ _ _ I8 I4 I3 HR E TW) as [(p & -> & HI)|(-> & HI)]; [left; exists p|right]; (split; [reflexivity|]).
    - destruct (g_live _ _ C _ _ _ HI TW CW) as ((D & _) & G). destruct (G _ (or_introl eq_refl)) as (G1 & G2 & G3 & u & Hu & Hin).
      cbn [bptr bsize balign] in *. pose proof (tok_props _ _ CW TW Hu) as (U1 & U2 & _).
      apply inside_iff in Hin as Hin'; [|exact G3]. cbn [bptr bsize] in Hin'.
      constructor; auto.
      + cbn [mlive map app]. constructor. exact I6.
      + apply tok_alloc; [exact HT|]. split; [lia|]. split; [lia|]. split; [exact G2|]. split; [|exact I9].
        intros x Hx. rewrite I6 in Hx. apply in_app_or in Hx. destruct Hx as [Hx|Hx].
        * apply in_map_iff in Hx. destruct Hx as (c & <- & Hc). apply D. exact Hc.
        * pose proof (tok_disjoint _ CO TO) as PD. apply (pairwise_disjoint_perm _ _ (Permutation_map snd PO)) in PD.
          rewrite map_app in PD. apply pairwise_disjoint_app in PD. destruct PD as (_ & _ & PD).
          intros OV. apply (PD (snd u) (snd x)); [apply in_map; exact Hu|apply in_map; exact Hx|].
          apply overlap_sym. apply (overlap_inside _ _ _ Hin). apply overlap_sym. exact OV.
    - constructor; auto.
  Qed.

  Lemma served_step_free top s w out live others b :
    served_inv top s w out live others -> tcalls_ok top -> In (k, b) (mlive top) ->
    exists s' w' n, n_free N s w (bptr b) (bsize b) (balign b) = (Ret tt, s', w') /\ mlog w' = n ++ mlog w /\
      tcalls_ok (n ++ out) /\ Forall is_free n /\
      (up (n ++ out) -> served_inv ((k, UFree (bptr b) (bsize b) (balign b)) :: top) s' w' (n ++ out) (remove1 b live) others).
  Proof.
    intros [I1 I2 I3 I4 I5 I6 I7 I8 I9] HT HB.
    assert (Hb : In b live).
    { rewrite I6 in HB. apply in_app_or in HB. destruct HB as [HB|HB]; [|exfalso; exact (I7 _ HB eq_refl)].
      apply in_map_iff in HB. destruct HB as (c & [= <-] & Hc). exact Hc. }
    destruct (g_free _ _ C _ _ _ _ I8 I4 I3 Hb) as (s' & w' & n & E & Hn & CW & FR & HI).
    exists s', w', n. split; [exact E|]. split; [exact Hn|]. rewrite Hn in CW.
    destruct (calls_ext n (mlog w) out others CW I1 I5) as (CO & PO). split; [exact CO|]. split; [exact FR|]. intros HU.
    pose proof (up_ok _ HU CO) as TO. pose proof (tok_ext n (mlog w) out others CW I1 I5 I4 TO) as TW.
    rewrite <- Hn in CW, TW, PO. constructor; auto.
    cbn [mlive]. destruct b as [p sz al]. cbn [bptr bsize balign]. apply remove1_of_perm; assumption.
  Qed.

  Lemma served_thm top s w out : served k N top s w out -> tcalls_ok top -> up out ->
    exists live others, served_inv top s w out live others.
  Proof.
    intros H. induction H as [s w H|top s w out j e H IH Hj|top s w out size align p s' w' n H IH E Hn
      |top s w out size align s' w' n H IH E Hn|top s w out p size align s' w' n H IH E Hn]; cbn [tcalls_ok]; intros HT HU.
    - destruct (g_init _ _ C _ _ H) as (H1 & H2). pose proof (up_ok _ HU H1) as TO. exists [], []. constructor; auto.
      rewrite app_nil_r. reflexivity.
    - destruct HT as (HE & HT). destruct (IH HT (up_tail [_] _ HU)) as (live & others & I).
      pose proof I as [I1 I2 I3 I4 I5 I6 I7 I8 I9]. destruct e as [sz al [p|]|p sz al]; unfold tcall_ok in HE; cbn [fst snd] in HE.
      + assert (CO : tcalls_ok ((j, UAlloc sz al (Some p)) :: out)) by (split; [exact HE|exact I1]).
        pose proof (up_ok _ HU CO) as TO. exists live, ((j, mkBlock p sz al) :: others). constructor; auto.
        * cbn [mlive]. rewrite I5. apply Permutation_middle.
        * cbn [mlive]. rewrite I6. apply Permutation_middle.
        * intros x [<-|Hx]; [exact Hj|auto].
        * apply tok_alloc; [exact HT|]. apply tok_alloc in TO; [|exact I1]. destruct TO as (T1 & T2 & T3 & T4 & _).
          do 3 (split; [assumption|]). split; [|exact I9]. intros x Hx OV.
          destruct (top_inside _ _ _ _ _ _ x I Hx) as (u & Hu & Hin). apply (T4 u Hu). exact (overlap_inside _ _ _ Hin OV).
      + assert (CO : tcalls_ok ((j, UAlloc sz al None) :: out)) by (split; [exact HE|exact I1]).
        exists live, others. constructor; auto.
      + assert (HO : In (j, mkBlock p sz al) others).
        { rewrite I6 in HE. apply in_app_or in HE. destruct HE as [HE|HE]; [|exact HE].
          apply in_map_iff in HE. destruct HE as (c & [= -> <-] & _). congruence. }
        assert (CO : tcalls_ok ((j, UFree p sz al) :: out)).
        { split; [|exact I1]. unfold tcall_ok. cbn [fst snd]. rewrite I5. apply in_or_app. auto. }
        exists live, (tremove1 (j, mkBlock p sz al) others). constructor; auto.
        * cbn [mlive]. apply remove1_of_perm'; assumption.
        * cbn [mlive]. apply remove1_of_perm'; assumption.
        * intros x Hx. apply I7. eapply tremove1_in; exact Hx.
    - destruct HT as (HR & HT). destruct (IH HT (up_tail _ _ HU)) as (live & others & I).
      destruct (served_step_alloc _ _ _ _ _ _ _ _ _ _ _ _ I HT HR E Hn HU) as [(q & [= <-] & I')|([=] & _)]. eauto.
    - destruct HT as (HR & HT). destruct (IH HT (up_tail _ _ HU)) as (live & others & I).
      destruct (served_step_alloc _ _ _ _ _ _ _ _ _ _ _ _ I HT HR E Hn HU) as [(q & [=] & _)|(_ & I')]. eauto.
    - destruct HT as (HB & HT). destruct (IH HT (up_tail _ _ HU)) as (live & others & I).
      unfold tcall_ok in HB. cbn [fst snd] in HB.
      destruct (served_step_free _ _ _ _ _ _ _ I HT HB) as (s1 & w1 & n1 & E1 & Hn1 & _ & _ & I'). cbn [bptr bsize balign] in E1, I'.
      rewrite E in E1. injection E1 as <- <-. assert (n1 = n) by (eapply app_inv_tail; rewrite <- Hn1; exact Hn). subst n1.
      eexists _, _. exact (I' HU).
  Qed.
End Serve.

(** ** The whole graph *)
Lemma served_tail k N e top s w out : served k N (e :: top) s w out ->
  exists s0 w0 out0 n, served k N top s0 w0 out0 /\ out = n ++ out0.
Proof.
  intros H. inversion H as [|? s0 w0 out0 j e0 H0 Hj|? s0 w0 out0 size align p s1 w1 n H0 E Hn
      |? s0 w0 out0 size align s1 w1 n H0 E Hn|? s0 w0 out0 p size align s1 w1 n H0 E Hn]; subst;
    [exists s, w, out0, [(j, e0)]|exists s0, w0, out0, n|exists s0, w0, out0, n|exists s0, w0, out0, n]; auto.
Qed.

Lemma graph_tail B ns : forall n l bottom, graph_runs B ns (n ++ l) bottom ->
  exists bottom' m, graph_runs B ns l bottom' /\ bottom = m ++ bottom'.
Proof.
  induction ns as [|N ns IH]; intros n l bottom H.
  - cbn [graph_runs] in *. subst. exists l, n. auto.
  - revert bottom H. induction n as [|e n IHn]; intros bottom H; cbn [app] in H; [exists bottom, []; auto|].
    cbn [graph_runs] in H. destruct H as (s & w & mid & H1 & H2).
    destruct (served_tail _ _ _ _ _ _ _ H1) as (s0 & w0 & mid0 & k & K1 & K2). rewrite K2 in H2.
    destruct (IH _ _ _ H2) as (b1 & m1 & M1 & M2).
    destruct (IHn b1) as (b2 & m2 & N1 & N2); [exists s0, w0, mid0; auto|].
    exists b2, (m1 ++ m2). split; [exact N1|]. rewrite M2, N2, app_assoc. reflexivity.
Qed.

Definition gbelow (B : nat) (ns : list node) (l : tlog) : Prop := exists bottom, graph_runs B ns l bottom /\ tok bottom.
Lemma gbelow_tail B ns n l : gbelow B ns (n ++ l) -> gbelow B ns l.
Proof.
  intros (b & H1 & H2). destruct (graph_tail B ns n l b H1) as (b' & m & B1 & ->). exists b'. split; [exact B1|]. eapply tok_app; exact H2.
Qed.

Theorem graph_correct B ns : Forall ncorrect ns -> forall top bottom,
  graph_runs B ns top bottom -> tcalls_ok top -> tok bottom ->
  tok top /\ tcalls_ok bottom /\
  forall x, In x (mlive top) -> exists u, In u (mlive bottom) /\ inside (snd x) (snd u).
Proof.
  induction 1 as [|N ns HN HF IH]; intros top bottom HS HC HU.
  - cbn [graph_runs] in HS. subst. split; [exact HU|]. split; [exact HC|]. intros x Hx. exists x. split; [exact Hx|]. intros y Hy. exact Hy.
  - cbn [graph_runs] in HS. destruct HS as (s & w & mid & H1 & H2). pose proof HN as (Inv & C).
    assert (UO : forall l, gbelow B ns l -> tcalls_ok l -> tok l).
    { intros l (b & B1 & B2) B3. apply (IH l b B1 B3 B2). }
    destruct (served_thm _ N Inv C (gbelow B ns) (gbelow_tail B ns) UO _ _ _ _ H1 HC) as (live & others & I); [exists bottom; auto|].
    destruct (IH _ _ H2 (i_out _ _ _ _ _ _ _ _ _ I) HU) as (I1 & I2 & I3). split; [exact (i_top _ _ _ _ _ _ _ _ _ I)|]. split; [exact I2|].
    intros x Hx. destruct (top_inside _ N Inv C _ _ _ _ _ _ x I Hx) as (u & Hu & Hin).
    destruct (I3 u Hu) as (v & Hv & Hin2). exists v. split; [exact Hv|]. intros y Hy. apply Hin2, Hin, Hy.
Qed.
Lemma gbelow_ok B ns : Forall ncorrect ns -> forall l, gbelow B ns l -> tcalls_ok l -> tok l.
Proof. intros HF l (b & B1 & B2) B3. apply (graph_correct B ns HF l b B1 B3 B2). Qed.

(** No call of a node is undefined. *)
Theorem graph_defined B N ns : ncorrect N -> Forall ncorrect ns -> forall k top s w out,
  served k N top s w out -> tcalls_ok top ->
  (forall size align r s' w' n bottom, req_ok size align ->
     n_alloc N s w size align = (r, s', w') -> mlog w' = n ++ mlog w -> graph_runs B ns (n ++ out) bottom -> tok bottom ->
     (exists p, r = Ret p) \/ r = Throw bad_alloc) /\
  (forall b bottom, In (k, b) (mlive top) -> graph_runs B ns out bottom -> tok bottom ->
     exists s' w', n_free N s w (bptr b) (bsize b) (balign b) = (Ret tt, s', w')).
Proof.
  intros (Inv & C) HF k top s w out H HC.
  assert (G : gbelow B ns out -> exists live others, served_inv k N Inv top s w out live others).
  { intros HB. eapply (served_thm k N Inv C (gbelow B ns) (gbelow_tail B ns) (gbelow_ok B ns HF)); eauto. }
  split.
  - intros size align r s' w' n bottom HR E Hn HS HU.
    assert (B' : gbelow B ns (n ++ out)) by (exists bottom; auto).
    destruct G as (live & others & I); [eapply gbelow_tail; exact B'|].
    destruct (served_step_alloc k N Inv C (gbelow B ns) (gbelow_tail B ns) (gbelow_ok B ns HF) _ _ _ _ _ _ _ _ _ _ _ _ I HC HR E Hn B') as [(p & -> & _)|(-> & _)]; eauto.
  - intros b bottom Hb HS HU. destruct G as (live & others & I); [exists bottom; auto|].
    destruct (served_step_free k N Inv C (gbelow B ns) (gbelow_ok B ns HF) _ _ _ _ _ _ _ I HC Hb) as (s' & w' & n & E & _). eauto.
Qed.

Lemma graph_destroyed_before B ns : forall top bottom, graph_destroyed B ns top bottom ->
  exists bottom' m, graph_runs B ns top bottom' /\ bottom = m ++ bottom'.
Proof.
  induction ns as [|N ns IH]; intros top bottom H; cbn [graph_destroyed] in H.
  - subst. exists bottom, []. split; reflexivity.
  - destruct H as (s & w & mid & n & H1 & Hn & H2). destruct (IH _ _ H2) as (b1 & m1 & M1 & M2).
    destruct (graph_tail B ns _ _ _ M1) as (b2 & m2 & N1 & N2).
    exists b2, (m1 ++ m2). split; [exists s, w, mid; auto|]. rewrite M2, N2, app_assoc. reflexivity.
Qed.

Theorem graph_released B ns : Forall ncorrect ns -> forall top bottom,
  graph_destroyed B ns top bottom -> tcalls_ok top -> mlive top = [] -> tok bottom ->
  tcalls_ok bottom /\ mlive bottom = [].
Proof.
  induction 1 as [|N ns HN HF IH]; intros top bottom HD HC HL HU.
  - cbn [graph_destroyed] in HD. subst. auto.
  - cbn [graph_destroyed] in HD. destruct HD as (s & w & mid & n & H1 & Hn & H2). pose proof HN as (Inv & C).
    destruct (graph_destroyed_before B ns _ _ H2) as (b1 & m1 & M1 & M2).
    assert (GB : gbelow B ns mid).
    { apply (gbelow_tail B ns n). exists b1. split; [exact M1|]. rewrite M2 in HU. eapply tok_app; exact HU. }
    destruct (served_thm _ N Inv C (gbelow B ns) (gbelow_tail B ns) (gbelow_ok B ns HF) _ _ _ _ H1 HC GB) as (live & others & I).
    destruct I as [I1 I2 I3 I4 I5 I6 I7 I8 I9]. rewrite HL in I6. apply Permutation_nil in I6. apply app_eq_nil in I6.
    destruct I6 as (L & ->). destruct live; [|discriminate].
    destruct (g_destroy _ _ C _ _ I8 I4 I3) as (n' & Hn' & D1 & D2). rewrite Hn in D1, D2.
    destruct (calls_ext n (mlog w) mid [] D1 I1 I5) as (CO & PO). rewrite D2 in PO. cbn [app] in PO. symmetry in PO. apply Permutation_nil in PO.
    exact (IH _ _ H2 CO PO HU).
Qed.

(** ** The nodes *)
Lemma plain_tagged u w : plain (tagged u w) = w.
Proof. unfold plain, tagged. cbn [mlog morc]. rewrite map_map. cbn [snd]. rewrite map_id. destruct w; reflexivity. Qed.
Lemma mlive_tagged u l : mlive (map (pair u) l) = map (pair u) (ulive l).
Proof.
  induction l as [|[s a [p|]|p s a] l IH]; cbn [map mlive ulive]; rewrite ?IH; auto.
  generalize (ulive l). clear. induction l as [|c l IH]; [reflexivity|]. cbn [map tremove1 remove1].
  destruct (tblock_eq_dec (u, mkBlock p s a) (u, c)) as [Q|NE]; destruct (block_eq_dec (mkBlock p s a) c) as [Q'|NE']; [reflexivity|congruence|congruence|].
  cbn [map]. rewrite IH. reflexivity.
Qed.
Lemma untag_tagged u l : map snd (map (pair u) l : tlog) = l.
Proof. rewrite map_map. cbn [snd]. apply map_id. Qed.
Lemma tcalls_tagged u l : tcalls_ok (map (pair u) l) <-> calls_ok l.
Proof.
  induction l as [|e l IH]; cbn [map tcalls_ok calls_ok]; [tauto|]. rewrite IH. unfold tcall_ok, call_ok. cbn [fst snd].
  destruct e as [s a r|p s a]; [tauto|]. rewrite mlive_tagged, in_map_iff.
  split; (intros (H & HC); split; [|exact HC]); [destruct H as (c & [= ->] & Hc); exact Hc|exists (mkBlock p s a); auto].
Qed.

Lemma one_node_correct R u : correct R -> ncorrect (one_node R u).
Proof.
  intros (Inv & C).
  assert (TK : forall l, tok (map (pair u) l) <-> upstream_ok l) by (intros l; unfold tok; rewrite untag_tagged; tauto).
  exists (fun s w live => exists w0, w = tagged u w0 /\ Inv s w0 live). split; cbn [nstate one_node n_init n_alloc n_free n_destroy].
  - intros s w (w0 & -> & H). cbn [tagged mlog]. rewrite tcalls_tagged, TK. destruct (k_init _ _ C _ _ H) as (H1 & H2).
    split; [|intros HU; exists w0; auto]. destruct H1 as [->|(e & -> & He)]; cbn [calls_ok]; auto.
  - intros s w live size align r s' w' (w0 & -> & HI) HT HC HR E. rewrite plain_tagged in E.
    destruct (r_alloc R s w0 size align) as [[r1 s1] w1] eqn:E1. injection E as <- <- <-. cbn [tagged mlog] in *.
    rewrite TK in HT. rewrite tcalls_tagged in *. destruct (k_alog _ _ C _ _ _ _ _ _ _ E1) as (n & Hn).
    exists (map (pair u) n). split; [rewrite Hn, map_app; reflexivity|]. rewrite tcalls_tagged.
    eapply one_call_calls; [|exact HC]. eapply k_call; eauto.
  - intros s w live size align r s' w' (w0 & -> & HI) HT HC HR E HT'. rewrite plain_tagged in E.
    destruct (r_alloc R s w0 size align) as [[r1 s1] w1] eqn:E1. injection E as <- <- <-. cbn [tagged mlog] in *. rewrite TK in *.
    destruct (k_alloc _ _ C _ _ _ _ _ _ _ _ HI HT HR E1 HT') as [(p & -> & HI')|(-> & HI')]; [left|right]; eauto 6.
  - intros s w live b (w0 & -> & HI) HT HC Hb. rewrite plain_tagged. cbn [tagged mlog] in *. rewrite TK in HT. rewrite tcalls_tagged in HC.
    destruct (k_free _ _ C _ _ _ _ HI HT Hb) as (s' & w' & E & OF & HI'). rewrite E.
    destruct (one_call_ext _ _ (one_free_call _ _ OF)) as (n & Hn).
    exists s', (tagged u w'), (map (pair u) n). split; [reflexivity|]. cbn [tagged mlog]. split; [rewrite Hn, map_app; reflexivity|].
    rewrite tcalls_tagged. split; [|split; [|intros _; exists w'; auto]].
    + eapply one_call_calls; [apply one_free_call; exact OF|exact HC].
    + destruct OF as [E0|(p & sz & al & E0 & _)]; rewrite E0 in Hn.
      * destruct n; [constructor|]. apply (f_equal (@length uevent)) in Hn. cbn [app length] in Hn. rewrite app_length in Hn. lia.
      * change (UFree p sz al :: ulog w0) with ([UFree p sz al] ++ ulog w0) in Hn. apply app_inv_tail in Hn. subst n.
        constructor; [exact Logic.I|constructor].
  - intros s w live (w0 & -> & HI) HT HC. cbn [tagged mlog] in *. rewrite TK in HT.
    destruct (k_live _ _ C _ _ _ HI HT) as (D & G). split; [exact D|]. intros b Hb.
    destruct (G b Hb) as (G1 & G2 & G3 & v & Hv & Hin). do 3 (split; [assumption|]). exists (u, v). rewrite mlive_tagged.
    split; [apply in_map; exact Hv|exact Hin].
  - intros s w (w0 & -> & HI) HT HC. rewrite plain_tagged. cbn [tagged mlog] in *. rewrite TK in HT. rewrite tcalls_tagged in HC.
    destruct (k_destroy _ _ C _ _ HI HT HC) as (D1 & D2). destruct (k_dlog _ _ C s w0) as (n & Hn).
    exists (map (pair u) n). split; [rewrite Hn, map_app; reflexivity|]. rewrite tcalls_tagged, mlive_tagged, D2. auto.
Qed.

(** Resources that remember where each block came from. *)
Lemma distinct_of_tok l : tcalls_ok l -> tok l -> distinct_ok l.
Proof.
  induction l as [|[i [s a [p|]|p s a]] l IH]; intros HC HT; cbn [distinct_ok]; [exact Logic.I| | |].
  - destruct HC as (HR & HC). apply tok_alloc in HT; [|exact HC]. destruct HT as (T1 & T2 & T3 & T4 & T5).
    unfold tcall_ok in HR. cbn [snd] in HR. destruct HR as (HR & _).
    split; [lia|]. split; [|auto]. intros c Hc E. apply (T4 c Hc). exists p. unfold in_block. cbn [bptr bsize].
    pose proof (tlive_pos _ _ HC Hc). lia.
  - apply IH; [exact (proj2 HC)|exact HT].
  - apply IH; [exact (proj2 HC)|exact HT].
Qed.

Lemma fails_calls size align fails l : req_ok size align ->
  (forall x, In x fails -> exists u, x = (u, UAlloc size align None)) -> tcalls_ok l -> tcalls_ok (fails ++ l).
Proof.
  intros HR HF HC. induction fails as [|x fails IH]; [exact HC|]. cbn [app tcalls_ok]. split; [|apply IH; intros; apply HF; right; assumption].
  destruct (HF x (or_introl eq_refl)) as (u & ->). exact HR.
Qed.

Section Tracked.
  Variable alloc : amap -> mworld -> Z -> Z -> outcome Z * amap * mworld.
  Hypothesis HG : good_alloc alloc.
  Hypothesis HB : forall m w size align e m' w', alloc m w size align = (Throw e, m', w') -> e = bad_alloc.
  Let N := mkNode amap (fun m w => m = [] /\ mlog w = []) alloc tracked_deallocate (fun _ w => w).

  Lemma tracked_correct : ncorrect N.
  Proof.
    exists (fun m w live => exists tl, treach alloc tracked_deallocate m w tl /\ Permutation live (map snd tl)).
    split; cbn [N nstate n_init n_alloc n_free n_destroy].
    - intros m w (-> & E). rewrite E. split; [exact Logic.I|]. intros _. exists []. split; [constructor; exact E|constructor].
    - intros m w live size align r m' w' _ _ HC HR E. destruct (HG _ _ _ _ _ _ _ E) as (_ & fails & HF & H).
      pose proof (fails_calls _ _ _ _ HR HF HC) as FC. assert (S0 : size <> 0) by (destruct HR; lia).
      destruct r as [p|e|].
      + destruct H as [(Z0 & _)|(_ & u & -> & _)]; [congruence|]. exists ((u, UAlloc size align (Some p)) :: fails).
        split; [reflexivity|]. split; [exact HR|exact FC].
      + destruct H as (_ & ->). eauto.
      + destruct H as (_ & ->). eauto.
    - intros m w live size align r m' w' (tl & HT & P) _ HC HR E _. destruct (HG _ _ _ _ _ _ _ E) as (NU & fails & HF & H).
      assert (S0 : size <> 0) by (destruct HR; lia). destruct r as [p|e|]; [left|right|exfalso; auto].
      + exists p. split; [reflexivity|]. exists ((newest w', mkBlock p size align) :: tl). split; [|cbn [map snd]; constructor; exact P].
        pose proof (treach_alloc _ _ _ _ _ _ _ _ _ _ HT E) as Q. rewrite (proj2 (Z.eqb_neq size 0) S0) in Q. exact Q.
      + rewrite (HB _ _ _ _ _ _ _ E). split; [reflexivity|]. exists tl. split; [|exact P]. eapply treach_alloc_throw; eauto.
    - intros m w live b (tl & HT & P) TO HC Hb. pose proof (treach_tinv _ _ _ _ HG HT (distinct_of_tok _ HC TO)) as TI.
      assert (IN : exists r, In (r, b) tl).
      { rewrite P in Hb. apply in_map_iff in Hb. destruct Hb as ([r c] & <- & Hc). exists r. exact Hc. }
      destruct IN as (r & IN). pose proof (tracked_free_spec _ _ _ _ _ TI IN) as E.
      eexists _, _, [(r, UFree (bptr b) (bsize b) (balign b))]. split; [exact E|]. split; [reflexivity|].
      assert (BE : mkBlock (bptr b) (bsize b) (balign b) = b) by (destruct b; reflexivity).
      split; [split; [|exact HC]; unfold tcall_ok; cbn [fst snd]; rewrite BE, <- (proj1 TI); exact IN|].
      split; [constructor; [exact Logic.I|constructor]|]. intros _. exists (tremove1 (r, b) tl). split; [eapply treach_free; eauto|].
      apply (Permutation_cons_inv (a := b)). rewrite <- (remove1_perm b live Hb), P.
      rewrite (tremove1_perm _ _ IN) at 1. reflexivity.
    - intros m w live (tl & HT & P) TO HC. pose proof (treach_tinv _ _ _ _ HG HT (distinct_of_tok _ HC TO)) as TI.
      rewrite (proj1 TI) in P. split; [eapply pairwise_disjoint_perm; [symmetry; exact P|]; apply tok_disjoint; assumption|].
      intros b Hb. rewrite P in Hb. apply in_map_iff in Hb. destruct Hb as (x & <- & Hx).
      destruct (tok_props _ _ HC TO Hx) as (T1 & T2 & T3). split; [exact T1|]. split; [exact T3|]. split; [exact (tlive_pos _ _ HC Hx)|].
      exists x. split; [exact Hx|]. intros y Hy. exact Hy.
    - intros m w (tl & HT & P) TO HC. pose proof (treach_tinv _ _ _ _ HG HT (distinct_of_tok _ HC TO)) as TI.
      exists []. split; [reflexivity|]. split; [exact HC|]. rewrite <- (proj1 TI). apply Permutation_nil in P.
      destruct tl; [reflexivity|discriminate].
  Qed.
End Tracked.

Lemma choice_node_correct dec : ncorrect (choice_node dec).
Proof.
  apply (tracked_correct _ (choice_good dec)). intros m w size align e m' w'. unfold choice_allocate.
  destruct (size =? 0); [discriminate|]. destruct (m_alloc w _ size align) as [[p|] w1]; congruence.
Qed.
Lemma coalescing_node_correct ups : ncorrect (coalescing_node ups).
Proof.
  apply (tracked_correct _ (coalescing_good ups)). intros m w size align e m' w'. unfold coalescing_allocate.
  destruct (size =? 0); [discriminate|]. revert w. induction ups as [|u ups IH]; intros w; cbn [coalescing_loop]; [congruence|].
  destruct (m_alloc w u size align) as [[p|] w1]; [congruence|apply IH].
Qed.
