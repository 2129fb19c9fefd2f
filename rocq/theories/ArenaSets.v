(** Address-ordered sets of blocks: effect of the arena's set operations. *)
From Verif Require Import Base BaseLemmas IntMath Arena.
From Coq Require Import Permutation Sorted.

Definition ablock (x : ablk) : block := mkBlock (fst x) (snd x) max_align.
Definition a_lt (x y : ablk) : Prop := fst x < fst y.
Definition a_sorted (l : list ablk) : Prop := StronglySorted a_lt l.

Lemma sorted_cons x l : a_sorted (x :: l) <-> a_sorted l /\ forall y, In y l -> fst x < fst y.
Proof.
  unfold a_sorted. split.
  - intros H. inversion H as [|x' l' S F]; subst. rewrite Forall_forall in F. auto.
  - intros (S & F). constructor; auto. apply Forall_forall. auto.
Qed.

Lemma sorted_app l1 l2 : a_sorted (l1 ++ l2) <->
  a_sorted l1 /\ a_sorted l2 /\ forall x y, In x l1 -> In y l2 -> fst x < fst y.
Proof.
  induction l1 as [|z l1 IH]; cbn [app].
  - split; [intros H; split; [constructor|split; [auto|intros x y []]]|tauto].
  - rewrite !sorted_cons, IH. split.
    + intros ((S1 & S2 & H) & F). split; [split; auto; intros; apply F; apply in_or_app; auto|].
      split; auto. intros x y [<-|Hx] Hy; [apply F; apply in_or_app; auto|auto].
    + intros ((S1 & F) & S2 & H). split.
      * split; auto. split; auto. intros x y Hx Hy. apply H; [right; auto|auto].
      * intros y Hy. apply in_app_or in Hy. destruct Hy; auto. apply H; [left; auto|auto].
Qed.

Lemma set_insert_spec b l : a_sorted l -> (forall x, In x l -> fst x <> fst b) ->
  a_sorted (set_insert b l) /\ Permutation (set_insert b l) (b :: l).
Proof.
  induction l as [|x l IH]; cbn [set_insert]; intros S HN.
  - split; [apply sorted_cons; split; [constructor|intros y []]|reflexivity].
  - pose proof S as S0. apply sorted_cons in S. destruct S as (S & F).
    destruct (Z.ltb_spec (fst x) (fst b)) as [LT|GE].
    + destruct (IH S ltac:(intros; apply HN; right; auto)) as (S1 & P1). split.
      * apply sorted_cons. split; auto. intros y Hy. apply (Permutation_in _ P1) in Hy.
        destruct Hy as [<-|Hy]; auto.
      * rewrite P1. apply perm_swap.
    + pose proof (HN x (or_introl eq_refl)). rewrite (proj2 (Z.eqb_neq _ _)) by auto.
      split; [|reflexivity]. apply sorted_cons. split; auto.
      intros y [<-|Hy]; [lia|apply F in Hy; lia].
Qed.

Lemma set_insert_present b l : a_sorted l -> In b l -> set_insert b l = l.
Proof.
  induction l as [|x l IH]; intros S H; [destruct H|]. apply sorted_cons in S. destruct S as (S & F).
  cbn [set_insert]. destruct H as [->|H].
  - rewrite Z.ltb_irrefl, Z.eqb_refl. auto.
  - pose proof (F b H). rewrite (proj2 (Z.ltb_lt _ _)) by auto. rewrite IH; auto.
Qed.

Lemma set_split_spec p l : a_sorted l -> forall a c, set_split p l = (a, c) ->
  l = a ++ c /\ (forall x, In x a -> fst x < p) /\ (forall x, In x c -> p <= fst x).
Proof.
  induction l as [|x l IH]; intros S a c E; cbn [set_split] in E.
  - injection E as <- <-. split; auto. split; intros x [].
  - apply sorted_cons in S. destruct S as (S & F). destruct (Z.ltb_spec (fst x) p) as [LT|GE].
    + destruct (set_split p l) as [a' c'] eqn:ES. injection E as <- <-.
      destruct (IH S _ _ eq_refl) as (-> & H1 & H2). split; auto. split; auto.
      intros y [<-|Hy]; auto.
    + injection E as <- <-. split; auto. split; [intros y []|].
      intros y [<-|Hy]; auto. apply F in Hy. lia.
Qed.

Lemma unsnoc_spec l : match unsnoc l with None => l = [] | Some (i, y) => l = i ++ [y] end.
Proof.
  induction l as [|x l IH]; cbn [unsnoc]; auto. destruct (unsnoc l) as [[i y]|]; subst; auto.
Qed.

Definition positive (l : list ablk) : Prop := forall x, In x l -> 0 < snd x.
Definition disj (l : list ablk) : Prop := pairwise_disjoint (map ablock l).

Lemma disj_perm l l' : Permutation l l' -> disj l -> disj l'.
Proof. intros P. apply pairwise_disjoint_perm. apply Permutation_map. auto. Qed.
Lemma disj_cons x l : disj (x :: l) <-> (forall y, In y l -> ~ overlap (ablock x) (ablock y)) /\ disj l.
Proof.
  unfold disj. cbn [map pairwise_disjoint]. split; intros (H & D); split; auto.
  - intros y Hy. apply H. apply in_map. auto.
  - intros c Hc. apply in_map_iff in Hc. destruct Hc as (y & <- & Hy). auto.
Qed.
Lemma no_overlap x y : 0 < snd x -> 0 < snd y ->
  ~ overlap (ablock x) (ablock y) <-> fst x + snd x <= fst y \/ fst y + snd y <= fst x.
Proof. intros. rewrite not_overlap_iff. cbn [ablock bptr bsize]. lia. Qed.
Lemma disj_pair l x y : disj l -> positive l -> In x l -> In y l -> x = y \/
  fst x + snd x <= fst y \/ fst y + snd y <= fst x.
Proof.
  induction l as [|z l IH]; intros D P Hx Hy; [destruct Hx|].
  apply disj_cons in D. destruct D as (H & D).
  assert (P' : positive l) by (intros q Hq; apply P; right; auto).
  pose proof (P z (or_introl eq_refl)) as Pz.
  destruct Hx as [<-|Hx], Hy as [<-|Hy]; auto.
  - right. apply H in Hy as N. apply no_overlap in N; auto.
  - right. apply H in Hx as N. apply no_overlap in N; auto. lia.
Qed.

Lemma disj_ptr_ne x l : disj (x :: l) -> positive (x :: l) -> forall y, In y l -> fst y <> fst x.
Proof.
  intros D P y Hy E. apply disj_cons in D. destruct D as (D & _). apply (D y Hy).
  exists (fst x). pose proof (P x (or_introl eq_refl)). pose proof (P y (or_intror Hy)).
  unfold in_block, ablock. cbn [bptr bsize]. lia.
Qed.

(** ** first_fit *)
Lemma first_fit_none size l : first_fit size l = None <-> forall b, In b l -> snd b < size.
Proof.
  induction l as [|b l IH]; cbn [first_fit].
  - split; auto. intros _ b [].
  - destruct (Z.leb_spec size (snd b)).
    + split; [destruct (size <? snd b); discriminate|]. intros F. pose proof (F b (or_introl eq_refl)). lia.
    + destruct (first_fit size l) as [[r l']|].
      * split; [discriminate|]. intros F. assert (@None (ablk * list ablk) = None) as _ by auto.
        assert (X : forall x, In x l -> snd x < size) by (intros; apply F; right; auto).
        apply IH in X. discriminate.
      * split; auto. intros _ x [<-|Hx]; auto. apply IH; auto.
Qed.

Lemma first_fit_some size l r l' : a_sorted l -> positive l -> disj l -> 0 < size ->
  first_fit size l = Some (r, l') ->
  a_sorted l' /\ exists b R, Permutation l (b :: R) /\ fst r = fst b /\ snd r = size /\
    (snd b = size /\ Permutation l' R \/
     size < snd b /\ Permutation l' ((fst b + size, snd b - size) :: R)).
Proof.
  intros S P D Hs. revert l' S P D. induction l as [|b l IH]; intros l' S P D E; [discriminate|].
  cbn [first_fit] in E. pose proof S as S0. apply sorted_cons in S. destruct S as (S & F).
  destruct (Z.leb_spec size (snd b)) as [LE|GT].
  - destruct (Z.ltb_spec size (snd b)) as [LT|GE]; injection E as <- <-.
    + destruct (set_insert_spec (fst b + size, snd b - size) l S) as (S1 & P1).
      { cbn [fst]. intros x Hx Ex. apply disj_cons in D. destruct D as (D & _).
        apply (D x Hx). exists (fst x). pose proof (P x (or_intror Hx)). unfold in_block, ablock. cbn [bptr bsize]. lia. }
      split; auto. exists b, l. split; [reflexivity|]. split; auto.
    + split; auto. exists b, l. split; [reflexivity|]. split; auto. split; [lia|]. left. split; [lia|reflexivity].
  - destruct (first_fit size l) as [[r1 l1]|] eqn:EF; [|discriminate]. injection E as <- <-.
    apply disj_cons in D. destruct D as (DB & D).
    destruct (IH l1 S ltac:(intros q Hq; apply P; right; auto) D eq_refl) as (S1 & c & R & P1 & E1 & E2 & C).
    assert (Hc : In c l) by (eapply Permutation_in; [symmetry; exact P1|left; auto]).
    assert (HR : forall y, In y R -> In y l) by (intros; eapply Permutation_in; [symmetry; exact P1|right; auto]).
    split.
    + apply sorted_cons. split; auto. intros y Hy. destruct C as [(_ & P2)|(_ & P2)]; apply (Permutation_in _ P2) in Hy.
      * apply F. auto.
      * destruct Hy as [<-|Hy]; [cbn [fst]; apply F in Hc; lia|apply F; auto].
    + exists c, (b :: R). split; [rewrite P1; apply perm_swap|]. split; auto. split; auto.
      destruct C as [(C1 & C2)|(C1 & C2)]; [left|right]; split; auto.
      * rewrite C2. apply perm_swap.
Qed.

(** ** coalesce *)
Definition merged_into (b : ablk) (l : list ablk) (m : ablk) (R : list ablk) : Prop :=
  (m = b /\ Permutation l R) \/
  (exists n, Permutation l (n :: R) /\ fst b + snd b = fst n /\ m = (fst b, snd b + snd n)) \/
  (exists p, Permutation l (p :: R) /\ fst p + snd p = fst b /\ m = (fst p, snd p + snd b)) \/
  (exists p n, Permutation l (p :: n :: R) /\ fst p + snd p = fst b /\ fst b + snd b = fst n /\
     m = (fst p, snd p + snd b + snd n)).

Lemma coalesce_spec b l : a_sorted l -> positive (b :: l) -> disj (b :: l) -> l <> [] ->
  exists l', coalesce b l = Ret l' /\ a_sorted l' /\ exists m R, Permutation l' (m :: R) /\ merged_into b l m R /\
    (fst m = fst b -> forall x, In x l -> fst x + snd x <> fst b) /\
    (fst m + snd m = fst b + snd b -> forall x, In x l -> fst b + snd b <> fst x).
Proof.
  intros S P D NE. pose proof (disj_ptr_ne b l D P) as HN.
  assert (HB : 0 < snd b) by (apply P; left; auto).
  assert (HP : forall x, In x l -> 0 < snd x) by (intros; apply P; right; auto).
  assert (HD : forall x, In x l -> fst b + snd b <= fst x \/ fst x + snd x <= fst b).
  { intros x Hx. destruct (disj_pair (b :: l) b x D P (or_introl eq_refl) (or_intror Hx)) as [->|N]; [|auto].
    exfalso. exact (HN x Hx eq_refl). }
  assert (HDL : forall x y, In x l -> In y l -> x = y \/ fst x + snd x <= fst y \/ fst y + snd y <= fst x).
  { intros x y Hx Hy. apply (disj_pair (b :: l)); auto; right; auto. }
  unfold coalesce. destruct (set_split (fst b) l) as [before after] eqn:ES.
  destruct (set_split_spec _ _ S _ _ ES) as (El & H1 & H2).
  (* what can touch b *)
  assert (TN : forall x, In x l -> fst b + snd b = fst x -> exists t, after = x :: t).
  { intros x Hx Ex. pose proof Hx as Hx0. rewrite El in Hx. apply in_app_or in Hx.
    destruct Hx as [Hx|Hx]; [apply H1 in Hx; lia|].
    destruct after as [|n t]; [destruct Hx|]. destruct Hx as [->|Hx]; [eauto|]. exfalso.
    assert (Hn : In n l) by (rewrite El; apply in_or_app; right; left; auto).
    rewrite El in S. apply sorted_app in S. destruct S as (_ & S & _). apply sorted_cons in S.
    destruct S as (_ & S). apply S in Hx. specialize (HD n Hn). pose proof (H2 n (or_introl eq_refl)).
    pose proof (HP n Hn). pose proof (HN n Hn). lia. }
  assert (TP : forall x i y, In x l -> fst x + snd x = fst b -> before = i ++ [y] -> x = y).
  { intros x i y Hx Ex Eb. assert (Hy : In y l) by (rewrite El, Eb; apply in_or_app; left; apply in_or_app; right; left; auto).
    pose proof Hx as Hx0. rewrite El in Hx. apply in_app_or in Hx. destruct Hx as [Hx|Hx].
    - rewrite Eb in Hx. apply in_app_or in Hx. destruct Hx as [Hx|[->|[]]]; auto.
      exfalso. rewrite El, Eb in S. apply sorted_app in S. destruct S as (S & _ & _). apply sorted_app in S.
      destruct S as (_ & _ & S). specialize (S x y Hx (or_introl eq_refl)).
      assert (fst y < fst b) by (apply H1; rewrite Eb; apply in_or_app; right; left; auto).
      pose proof (HP y Hy). pose proof (HP x Hx0).
      destruct (HDL x y Hx0 Hy) as [->|]; lia.
    - apply H2 in Hx. pose proof (HP x Hx0). lia. }
  assert (TP0 : before = [] -> forall x, In x l -> fst x + snd x <> fst b).
  { intros Eb x Hx Ex. pose proof Hx as Hx0. rewrite El, Eb in Hx. apply H2 in Hx. pose proof (HP x Hx0). lia. }
  assert (SI : a_sorted (set_insert b l) /\ Permutation (set_insert b l) (b :: l)).
  { apply set_insert_spec; auto. }
  pose proof (unsnoc_spec before) as US. destruct (unsnoc before) as [[i y]|].
  - assert (Hy : In y l) by (rewrite El, US; apply in_or_app; left; apply in_or_app; right; left; auto).
    assert (Hyb : fst y < fst b) by (apply H1; rewrite US; apply in_or_app; right; left; auto).
    assert (Sia : a_sorted (i ++ after) /\ (forall x, In x (i ++ after) -> fst x <> fst y)).
    { rewrite El, US, <- app_assoc in S. cbn [app] in S. apply sorted_app in S. destruct S as (S1 & S2 & S3).
      apply sorted_cons in S2. destruct S2 as (S2 & S4). split.
      - apply sorted_app. split; auto. split; auto. intros x z Hx Hz. apply S3; [auto|right; auto].
      - intros x Hx. apply in_app_or in Hx. destruct Hx as [Hx|Hx].
        + specialize (S3 x y Hx (or_introl eq_refl)). lia.
        + apply S4 in Hx. lia. }
    destruct Sia as (Sia & Nia).
    assert (Pl : Permutation l (y :: i ++ after)).
    { rewrite El, US, <- app_assoc. cbn [app]. symmetry. apply Permutation_middle. }
    unfold contiguous_before. destruct (Z.eqb_spec (fst y + snd y) (fst b)) as [EP|NP].
    + destruct after as [|n t] eqn:EA; [|destruct (Z.eqb_spec (fst b + snd b) (fst n)) as [EN|NN]].
      * eexists. split; [reflexivity|].
        destruct (set_insert_spec (fst y, snd y + snd b) (i ++ []) Sia Nia) as (Q1 & Q2).
        split; auto. eexists. eexists. split; [exact Q2|]. split.
        -- right. right. left. exists y. auto.
        -- cbn [fst snd]. split; [lia|]. intros _ x Hx Ex. destruct (TN x Hx Ex) as (t & Et). discriminate.
      * assert (Hn : In n l) by (rewrite El; apply in_or_app; right; left; auto).
        eexists. split; [reflexivity|]. cbn [tl].
        destruct (set_insert_spec (fst y, snd y + snd b + snd n) (i ++ t)) as (Q1 & Q2).
        { apply sorted_app in Sia. destruct Sia as (S1 & S2 & S3). apply sorted_cons in S2. apply sorted_app.
          split; auto. split; [apply S2|]. intros x z Hx Hz. apply S3; [auto|right; auto]. }
        { intros x Hx. apply Nia. apply in_app_or in Hx. apply in_or_app. destruct Hx; [auto|right; right; auto]. }
        split; auto. eexists. eexists. split; [exact Q2|]. split.
        -- right. right. right. exists y, n. split; auto. rewrite Pl. constructor. symmetry. apply Permutation_middle.
        -- cbn [fst snd]. split; [lia|]. pose proof (HP n Hn). lia.
      * eexists. split; [reflexivity|].
        destruct (set_insert_spec (fst y, snd y + snd b) (i ++ n :: t) Sia Nia) as (Q1 & Q2).
        split; auto. eexists. eexists. split; [exact Q2|]. split.
        -- right. right. left. exists y. auto.
        -- cbn [fst snd]. split; [lia|]. intros _ x Hx Ex. destruct (TN x Hx Ex) as (t' & Et). injection Et as -> ->. auto.
    + assert (TP' : forall x, In x l -> fst x + snd x <> fst b).
      { intros x Hx Ex. rewrite (TP x i y Hx Ex US) in Ex. auto. }
      destruct after as [|n t] eqn:EA; [|destruct (Z.eqb_spec (fst b + snd b) (fst n)) as [EN|NN]].
      * eexists. split; [reflexivity|]. split; [apply SI|]. exists b, l. split; [apply SI|].
        split; [left; auto|]. split; auto. intros _ x Hx Ex. destruct (TN x Hx Ex) as (t & Et). discriminate.
      * assert (Hn : In n l) by (rewrite El; apply in_or_app; right; left; auto).
        eexists. split; [reflexivity|]. cbn [tl].
        assert (Pn : Permutation l (n :: before ++ t)) by (rewrite El; symmetry; apply Permutation_middle).
        destruct (set_insert_spec (fst b, snd b + snd n) (before ++ t)) as (Q1 & Q2).
        { rewrite El in S. apply sorted_app in S. destruct S as (S1 & S2 & S3). apply sorted_cons in S2. apply sorted_app.
          split; auto. split; [apply S2|]. intros x z Hx Hz. apply S3; [auto|right; auto]. }
        { intros x Hx. cbn [fst]. apply HN. eapply Permutation_in; [symmetry; exact Pn|right; auto]. }
        split; auto. eexists. eexists. split; [exact Q2|]. split.
        -- right. left. exists n. auto.
        -- cbn [fst snd]. split; auto. pose proof (HP n Hn). lia.
      * eexists. split; [reflexivity|]. split; [apply SI|]. exists b, l. split; [apply SI|].
        split; [left; auto|]. split; auto. intros _ x Hx Ex. destruct (TN x Hx Ex) as (t' & Et). injection Et as -> ->. auto.
  - subst before. specialize (TP0 eq_refl). cbn [app] in El. destruct after as [|n t]; [congruence|].
    assert (Hn : In n l) by (rewrite El; left; auto).
    unfold contiguous_before. rewrite (proj2 (Z.eqb_neq (fst n + snd n) (fst b))) by (apply TP0; auto).
    destruct (Z.eqb_spec (fst b + snd b) (fst n)) as [EN|NN].
    + eexists. split; [reflexivity|].
      destruct (set_insert_spec (fst b, snd b + snd n) t) as (Q1 & Q2).
      { rewrite El in S. apply sorted_cons in S. apply S. }
      { intros x Hx. cbn [fst]. apply HN. rewrite El. right. auto. }
      split; auto. eexists. eexists. split; [exact Q2|]. split.
      * right. left. exists n. rewrite El. auto.
      * cbn [fst snd]. split; auto. pose proof (HP n Hn). lia.
    + eexists. split; [reflexivity|]. split; [apply SI|]. exists b, l. split; [apply SI|].
      split; [left; auto|]. split; auto. intros _ x Hx Ex. destruct (TN x Hx Ex) as (t' & Et). injection Et as -> ->. auto.
Qed.

(** A block that is already in the set and touches no other block: no change. *)
Lemma coalesce_present b l : a_sorted l -> In b l -> 0 < snd b -> positive l ->
  (forall x, In x l -> fst x + snd x <> fst b) -> coalesce b l = Ret l.
Proof.
  intros S Hb HB HP HT. unfold coalesce. destruct (set_split (fst b) l) as [before after] eqn:ES.
  destruct (set_split_spec _ _ S _ _ ES) as (El & H1 & H2).
  assert (EA : exists t, after = b :: t).
  { rewrite El in Hb. apply in_app_or in Hb. destruct Hb as [Hb|Hb]; [apply H1 in Hb; lia|].
    destruct after as [|n t]; [destruct Hb|]. destruct Hb as [->|Hb]; eauto. exfalso.
    rewrite El in S. apply sorted_app in S. destruct S as (_ & S & _). apply sorted_cons in S.
    apply S in Hb. pose proof (H2 n (or_introl eq_refl)). lia. }
  destruct EA as (t & ->). rewrite (set_insert_present b l S Hb).
  assert (EN : contiguous_before b b = false) by (unfold contiguous_before; apply Z.eqb_neq; lia).
  rewrite EN. pose proof (unsnoc_spec before) as US. destruct (unsnoc before) as [[i y]|].
  - assert (EY : contiguous_before y b = false).
    { unfold contiguous_before. apply Z.eqb_neq. apply HT. rewrite El, US. apply in_or_app. left. apply in_or_app. right. left. auto. }
    rewrite EY. auto.
  - auto.
Qed.

Lemma free_block_spec p l b r : free_block p l = Some (b, r) -> fst b = p /\ Permutation l (b :: r).
Proof.
  revert b r. induction l as [|x l IH]; intros b r E; cbn [free_block] in E; [discriminate|].
  destruct (Z.eqb_spec (fst x) p).
  - injection E as <- <-. auto.
  - destruct (free_block p l) as [[d' r']|]; [|discriminate]. injection E as <- <-.
    destruct (IH _ _ eq_refl) as (H1 & H2). split; auto. rewrite H2. apply perm_swap.
Qed.
Lemma free_block_some l b : In b l -> free_block (fst b) l <> None.
Proof.
  induction l as [|x l IH]; cbn [free_block In]; [tauto|]. intros [->|H].
  - rewrite Z.eqb_refl. discriminate.
  - destruct (fst x =? fst b); [discriminate|]. destruct (free_block (fst b) l) as [[? ?]|]; [discriminate|].
    exfalso. apply IH; auto.
Qed.
Lemma free_block_sorted p l b r : a_sorted l -> free_block p l = Some (b, r) -> a_sorted r.
Proof.
  revert b r. induction l as [|x l IH]; intros b r S E; cbn [free_block] in E; [discriminate|].
  apply sorted_cons in S. destruct S as (S & F). destruct (fst x =? p).
  - injection E as <- <-. auto.
  - destruct (free_block p l) as [[d' r']|] eqn:EF; [|discriminate]. injection E as <- <-.
    apply sorted_cons. split; [eapply IH; eauto|]. intros y Hy. apply F.
    destruct (free_block_spec _ _ _ _ EF) as (_ & P). eapply Permutation_in; [symmetry; exact P|right; auto].
Qed.
