(** Lemmas about [Base]. *)
From Verif Require Import Base.
From Coq Require Import Permutation.

Lemma overlap_sym b c : overlap b c -> overlap c b.
Proof. intros (x & H1 & H2). exists x. tauto. Qed.

Lemma not_overlap_iff b c :
  ~ overlap b c <->
  bsize b <= 0 \/ bsize c <= 0 \/
  bptr b + bsize b <= bptr c \/ bptr c + bsize c <= bptr b.
Proof.
  unfold overlap, in_block. split.
  - intros H.
    destruct (Z_le_gt_dec (bsize b) 0); [tauto|].
    destruct (Z_le_gt_dec (bsize c) 0); [tauto|].
    destruct (Z_le_gt_dec (bptr b + bsize b) (bptr c)); [tauto|].
    destruct (Z_le_gt_dec (bptr c + bsize c) (bptr b)); [tauto|].
    exfalso. apply H. exists (Z.max (bptr b) (bptr c)). lia.
  - intros H (x & Hx). lia.
Qed.

Lemma inside_iff b c :
  0 < bsize b ->
  (inside b c <-> bptr c <= bptr b /\ bptr b + bsize b <= bptr c + bsize c).
Proof.
  unfold inside, in_block. intros Hb. split.
  - intros H. pose proof (H (bptr b)). pose proof (H (bptr b + bsize b - 1)). lia.
  - intros H x Hx. lia.
Qed.

Lemma inside_not_overlap b b' c c' :
  inside b b' -> inside c c' -> ~ overlap b' c' -> ~ overlap b c.
Proof.
  intros Hb Hc H (x & H1 & H2). apply H. exists x. auto.
Qed.

Lemma remove1_in b c l : In c (remove1 b l) -> In c l.
Proof.
  induction l as [|d l IH]; simpl; [tauto|].
  destruct (block_eq_dec b d); simpl; tauto.
Qed.

Lemma remove1_in_ne b c l : b <> c -> In c l -> In c (remove1 b l).
Proof.
  induction l as [|d l IH]; simpl; [tauto|].
  intros Hne H. destruct (block_eq_dec b d) as [E|NE]; simpl; [|tauto].
  destruct H as [H|H]; auto. congruence.
Qed.

Lemma remove1_perm b l : In b l -> Permutation l (b :: remove1 b l).
Proof.
  induction l as [|d l IH]; simpl; [tauto|].
  destruct (block_eq_dec b d) as [->|Hne]; [reflexivity|].
  intros [->|H]; [congruence|].
  rewrite perm_swap. constructor. auto.
Qed.

Lemma remove1_notin b l : ~ In b l -> remove1 b l = l.
Proof.
  induction l as [|d l IH]; simpl; [reflexivity|].
  intros H. destruct (block_eq_dec b d) as [->|Hne]; [tauto|].
  rewrite IH; tauto.
Qed.

Lemma pairwise_disjoint_perm l l' :
  Permutation l l' -> pairwise_disjoint l -> pairwise_disjoint l'.
Proof.
  induction 1 as [|x l l' HP IH|x y l|l1 l2 l3 H12 IH12 H23 IH23]; simpl; auto.
  - intros [H1 H2]. split; auto. intros c Hc. apply H1.
    eapply Permutation_in; [symmetry; exact HP|exact Hc].
  - intros (H1 & H2 & H3). repeat split; auto.
    + intros c [<-|Hc]; auto. intros Ho. apply (H1 x); auto. apply overlap_sym; auto.
Qed.

Lemma pairwise_disjoint_remove1 b l :
  pairwise_disjoint l -> pairwise_disjoint (remove1 b l).
Proof.
  induction l as [|d l IH]; simpl; auto.
  intros [H1 H2]. destruct (block_eq_dec b d); auto.
  simpl. split; auto. intros c Hc. apply H1. eapply remove1_in; eauto.
Qed.

Lemma pairwise_disjoint_app l1 l2 :
  pairwise_disjoint (l1 ++ l2) <->
  pairwise_disjoint l1 /\ pairwise_disjoint l2 /\
  (forall b c, In b l1 -> In c l2 -> ~ overlap b c).
Proof.
  induction l1 as [|x l1 IH]; simpl.
  - firstorder.
  - rewrite IH. split.
    + intros (H1 & H2 & H3 & H4). repeat split; auto.
      * intros c Hc. apply H1. apply in_or_app. auto.
      * intros b c [<-|Hb] Hc; auto. apply H1. apply in_or_app. auto.
    + intros ((H1 & H2) & H3 & H4). repeat split; auto.
      intros c Hc. apply in_app_or in Hc. destruct Hc; auto.
Qed.

Lemma pairwise_disjoint_nth l i j b c :
  pairwise_disjoint l -> nth_error l i = Some b -> nth_error l j = Some c ->
  i <> j -> ~ overlap b c.
Proof.
  revert i j. induction l as [|x l IH]; intros i j; simpl.
  - destruct i; discriminate.
  - intros [H1 H2] Hi Hj Hne. destruct i as [|i], j as [|j]; simpl in *.
    + congruence.
    + inversion Hi; subst. apply H1. eapply nth_error_In; eauto.
    + inversion Hj; subst. intros Ho. apply (H1 b).
      * eapply nth_error_In; eauto.
      * apply overlap_sym; auto.
    + eapply IH; eauto.
Qed.

(** Live blocks of a well-behaved upstream are disjoint and non-null. *)
Lemma ulive_disjoint l : upstream_ok l -> pairwise_disjoint (ulive l).
Proof.
  induction l as [|[s a [p|]|p s a] l IH]; simpl; auto.
  - intros (H1 & H2 & H3 & H4 & H5). auto.
  - intros H. apply pairwise_disjoint_remove1. auto.
Qed.

Lemma ulive_props l b :
  upstream_ok l -> In b (ulive l) ->
  0 < bptr b /\ bptr b + bsize b < 2 ^ 64 /\ (balign b | bptr b).
Proof.
  induction l as [|[s a [p|]|p s a] l IH]; simpl; try tauto.
  - intros (H1 & H2 & H3 & H4 & H5) [<-|H]; simpl; auto.
  - intros H1 H2. apply IH; auto. eapply remove1_in; eauto.
Qed.

Lemma upstream_ok_tail e l : upstream_ok (e :: l) -> upstream_ok l.
Proof. destruct e as [s a [p|]|]; simpl; tauto. Qed.

(** Lists with [upd]. *)
Lemma upd_length {A} (l : list A) n x : length (upd l n x) = length l.
Proof. revert n. induction l as [|y l IH]; intros [|n]; simpl; auto. Qed.

Lemma nth_error_upd_eq {A} (l : list A) n x :
  (n < length l)%nat -> nth_error (upd l n x) n = Some x.
Proof.
  revert n. induction l as [|y l IH]; intros [|n] H; simpl in *; try lia; auto.
  apply IH. lia.
Qed.

Lemma nth_error_upd_ne {A} (l : list A) n m x :
  n <> m -> nth_error (upd l n x) m = nth_error l m.
Proof.
  revert n m. induction l as [|y l IH]; intros [|n] [|m] H; simpl; auto; try lia.
Qed.

Lemma nth_error_upd {A} (l : list A) n m x :
  nth_error (upd l n x) m =
  if Nat.eq_dec n m then
    (if lt_dec n (length l) then Some x else None)
  else nth_error l m.
Proof.
  destruct (Nat.eq_dec n m) as [->|Hne].
  - destruct (lt_dec m (length l)).
    + apply nth_error_upd_eq; auto.
    + apply nth_error_None. rewrite upd_length. lia.
  - apply nth_error_upd_ne; auto.
Qed.

Lemma upd_nth_same {A} (l : list A) n x :
  nth_error l n = Some x -> upd l n x = l.
Proof.
  revert n. induction l as [|y l IH]; intros [|n]; simpl; try discriminate.
  - intros [= ->]. auto.
  - intros H. rewrite IH; auto.
Qed.

Lemma upd_upd {A} (l : list A) n x y : upd (upd l n x) n y = upd l n y.
Proof. revert n. induction l as [|z l IH]; intros [|n]; simpl; auto. rewrite IH; auto. Qed.

Lemma map_upd {A B} (f : A -> B) l n x : map f (upd l n x) = upd (map f l) n (f x).
Proof. revert n. induction l as [|z l IH]; intros [|n]; simpl; auto. rewrite IH; auto. Qed.

Lemma nth_error_lt {A} (l : list A) n x : nth_error l n = Some x -> (n < length l)%nat.
Proof. intros H. apply nth_error_Some. congruence. Qed.

(** Boolean version of [upstream_ok] for concrete logs. *)
Definition disjointb (b c : block) : bool :=
  (bsize b <=? 0) || (bsize c <=? 0) ||
  (bptr b + bsize b <=? bptr c) || (bptr c + bsize c <=? bptr b).
Lemma disjointb_ok b c : disjointb b c = true <-> ~ overlap b c.
Proof. rewrite not_overlap_iff. unfold disjointb. lia. Qed.

Fixpoint upstream_okb (l : list uevent) : bool :=
  match l with
  | [] => true
  | UAlloc s a (Some p) :: l' =>
      (0 <? p) && (p + s <? 2 ^ 64) && (0 <? a) && (p mod a =? 0) &&
      forallb (disjointb (mkBlock p s a)) (ulive l') && upstream_okb l'
  | UAlloc _ _ None :: l' => upstream_okb l'
  | UFree _ _ _ :: l' => upstream_okb l'
  end.
Lemma upstream_okb_ok l : upstream_okb l = true -> upstream_ok l.
Proof.
  induction l as [|[s a [p|]|p s a] l IH]; cbn [upstream_okb upstream_ok]; auto.
  rewrite !andb_true_iff. intros (((((H1 & H2) & H3) & H4) & H5) & H6).
  repeat split; try lia; auto.
  - apply Z.mod_divide; lia.
  - intros c Hc. apply disjointb_ok. rewrite forallb_forall in H5. auto.
Qed.

Fixpoint pairwise_disjointb (l : list block) : bool :=
  match l with
  | [] => true
  | b :: l' => forallb (disjointb b) l' && pairwise_disjointb l'
  end.
Lemma pairwise_disjointb_ok l : pairwise_disjointb l = true <-> pairwise_disjoint l.
Proof.
  induction l as [|b l IH]; cbn [pairwise_disjointb pairwise_disjoint]; [tauto|].
  rewrite andb_true_iff, IH, forallb_forall. split; intros [H1 H2]; split; auto.
  - intros c Hc. apply disjointb_ok. auto.
  - intros c Hc. apply disjointb_ok. auto.
Qed.

Lemma pow2_intro k : 0 <= k -> pow2 (2 ^ k).
Proof. intros. exists k. auto. Qed.
