(** Proofs about comparing memory resources. *)
From Verif Require Export ResEqual.

(** The resource and those below it. *)
Fixpoint below (r : mres) : list mres :=
  r :: match r with MIdentity _ u | MSync _ u => below u | _ => [] end.
(** Different objects have different addresses. *)
Definition objects (rs : list mres) : Prop :=
  forall r s x y, In r rs -> In s rs -> In x (below r) -> In y (below s) -> mr_addr x = mr_addr y -> x = y.

(** The kinds of layers, from the outside. *)
Inductive layer := LIdentity | LSync.
Fixpoint layers (r : mres) : list layer :=
  match r with
  | MIdentity _ u => LIdentity :: layers u
  | MSync _ u => LSync :: layers u
  | _ => []
  end.

Lemma self_below : forall r, In r (below r).
Proof. intros []; left; reflexivity. Qed.

Lemma mr_refl : forall r, mr_is_equal r r = true.
Proof. induction r; cbn [mr_is_equal mr_addr]; auto. apply Nat.eqb_refl. Qed.

Lemma mr_trans : forall a b c, objects [a; b; c] ->
  mr_is_equal a b = true -> mr_is_equal b c = true -> mr_is_equal a c = true.
Proof.
  intros a b c; revert b c; induction a as [p|p|p|p u IH|p u IH]; intros b c Hob H1 H2.
  - cbn [mr_is_equal] in H1. apply Nat.eqb_eq in H1.
    assert (MOwn p = b) as <-.
    { apply (Hob (MOwn p) b); [left|right; left| apply self_below | apply self_below |]; auto. }
    exact H2.
  - destruct b; try discriminate. exact H2.
  - destruct b; try discriminate. exact H2.
  - destruct b as [| | |q v|]; try discriminate. destruct c as [| | |s w|]; try discriminate.
    cbn [mr_is_equal] in *. apply (IH v w); auto.
    intros r t x y Hr Ht Hx Hy E.
    assert (L : forall r x, In r [u; v; w] -> In x (below r) ->
              exists r', In r' [MIdentity p u; MIdentity q v; MIdentity s w] /\ In x (below r')).
    { clear. intros r x [<-|[<-|[<-|[]]]] Hx;
        [exists (MIdentity p u)|exists (MIdentity q v)|exists (MIdentity s w)]; (split; [simpl; auto|right; exact Hx]). }
    destruct (L _ _ Hr Hx) as (r' & Hr' & Hx'). destruct (L _ _ Ht Hy) as (t' & Ht' & Hy').
    exact (Hob r' t' x y Hr' Ht' Hx' Hy' E).
  - assert (Lift : forall b' c', (forall x, In x (below b') -> In x (below b)) -> (forall x, In x (below c') -> In x (below c)) ->
              objects [u; b'; c']).
    { intros b' c' Hb Hc r t x y Hr Ht Hx Hy E.
      assert (L : forall r x, In r [u; b'; c'] -> In x (below r) -> exists r', In r' [MSync p u; b; c] /\ In x (below r')).
      { intros r0 x0 [<-|[<-|[<-|[]]]] Hx0.
        - exists (MSync p u). split; [left; auto|right; exact Hx0].
        - exists b. split; [right; left; auto|auto].
        - exists c. split; [right; right; left; auto|auto]. }
      destruct (L _ _ Hr Hx) as (r' & Hr' & Hx'). destruct (L _ _ Ht Hy) as (t' & Ht' & Hy').
      exact (Hob r' t' x y Hr' Ht' Hx' Hy' E). }
    assert (Hnosync : forall q v s w, b = MOwn q \/ b = MHost q \/ b = MTerminal q \/ b = MIdentity q v -> c = MSync s w -> False).
    { intros q v s w [E|[E|[E|E]]] Ec; rewrite E, Ec in H2; cbn [mr_is_equal mr_addr] in H2; try discriminate.
      apply Nat.eqb_eq in H2. assert (b = c); [|congruence].
      apply (Hob b c); [right; left|right; right; left|apply self_below|apply self_below|]; auto.
      rewrite E, Ec. exact H2. }
    assert (Hno : forall q v, b = MOwn q \/ b = MHost q \/ b = MTerminal q \/ b = MIdentity q v -> mr_is_equal u b = true ->
              mr_is_equal (MSync p u) c = true).
    { intros q v Hb Hub. assert (Huc : mr_is_equal u c = true) by (apply (IH b c); auto).
      destruct c as [| | | |s w]; try exact Huc. exfalso; eapply Hnosync; eauto. }
    destruct b as [q|q|q|q v|q v].
    + apply (Hno q (MOwn q)); auto.
    + apply (Hno q (MOwn q)); auto.
    + apply (Hno q (MOwn q)); auto.
    + apply (Hno q v); auto 6.
    + cbn [mr_is_equal] in H1, H2 |- *. destruct c as [s|s|s|s w|s w];
        apply (IH v); auto; apply Lift; auto; intros x Hx; right; exact Hx.
Qed.

Lemma objects2 : forall a b x y, objects [a; b] -> (forall z, In z (below x) -> In z (below a)) ->
  (forall z, In z (below y) -> In z (below b)) -> objects [x; y].
Proof.
  intros a b x y Hob Ha Hb r t z z' Hr Ht Hz Hz' E.
  assert (L : forall r z, In r [x; y] -> In z (below r) -> exists r', In r' [a; b] /\ In z (below r')).
  { intros r0 z0 [<-|[<-|[]]] Hz0; [exists a|exists b]; (split; [simpl; auto|auto]). }
  destruct (L _ _ Hr Hz) as (r' & Hr' & Hx'). destruct (L _ _ Ht Hz') as (t' & Ht' & Hy').
  exact (Hob r' t' z z' Hr' Ht' Hx' Hy' E).
Qed.

(** Equal resources: the layers of the second are those of the first with some synchronized
    layers left out. *)
Inductive fewer : list layer -> list layer -> Prop :=
| few_nil : fewer [] []
| few_keep : forall l k k', fewer k k' -> fewer (l :: k) (l :: k')
| few_drop : forall k k', fewer k k' -> fewer (LSync :: k) k'.

Lemma fewer_length : forall k k', fewer k k' -> (length k' <= length k)%nat.
Proof. induction 1; cbn [length]; lia. Qed.
Lemma fewer_refl : forall k, fewer k k.
Proof. induction k; constructor; auto. Qed.
Lemma fewer_antisym : forall k k', fewer k k' -> fewer k' k -> k = k'.
Proof.
  intros k k' H1; induction H1 as [|l k k' H IH|k k' H IH]; intros H2; auto.
  - f_equal. apply IH. inversion H2 as [|l' j j' Hk|j j' Hk]; subst; auto.
    apply fewer_length in H. apply fewer_length in Hk. cbn [length] in *. lia.
  - apply fewer_length in H. apply fewer_length in H2. cbn [length] in *. lia.
Qed.

Lemma equal_layers : forall a b, objects [a; b] -> mr_is_equal a b = true -> fewer (layers a) (layers b).
Proof.
  induction a as [p|p|p|p u IH|p u IH]; intros b Hob H.
  - assert (MOwn p = b) as <-; [|apply fewer_refl].
    apply (Hob (MOwn p) b); [left|right; left|apply self_below|apply self_below|]; auto. apply Nat.eqb_eq, H.
  - destruct b; try discriminate. constructor.
  - destruct b; try discriminate. constructor.
  - destruct b as [| | |q v|]; try discriminate. cbn [layers]. apply few_keep, IH; auto.
    eapply objects2; eauto; intros x Hx; right; exact Hx.
  - destruct b as [q|q|q|q v|q v]; cbn [mr_is_equal] in H.
    1-4: cbn [layers]; apply few_drop; match type of H with mr_is_equal _ ?b = true => apply (IH b) end; auto;
         (eapply objects2; eauto; intros x Hx; right; exact Hx).
    cbn [layers]. apply few_keep, IH; auto. eapply objects2; eauto; intros x Hx; right; exact Hx.
Qed.

Lemma equal_sym_layers : forall a b, objects [a; b] -> mr_is_equal a b = true ->
  (mr_is_equal b a = true <-> layers a = layers b).
Proof.
  intros a b Hob H; split.
  - intro H'. apply fewer_antisym; [apply equal_layers|apply equal_layers]; auto.
    intros r t x y Hr Ht; apply (Hob r t x y); simpl in *; tauto.
  - revert b Hob H. induction a as [p|p|p|p u IH|p u IH]; intros b Hob H E.
    + assert (MOwn p = b) as <-; [|apply mr_refl].
      apply (Hob (MOwn p) b); [left|right; left|apply self_below|apply self_below|]; auto. apply Nat.eqb_eq, H.
    + destruct b; try discriminate; reflexivity.
    + destruct b; try discriminate; reflexivity.
    + destruct b as [| | |q v|]; try discriminate. cbn [mr_is_equal layers] in *. apply IH; auto; [|congruence].
      eapply objects2; eauto; intros x Hx; right; exact Hx.
    + destruct b as [| | | |q v]; try discriminate. cbn [mr_is_equal layers] in *. apply IH; auto; [|congruence].
      eapply objects2; eauto; intros x Hx; right; exact Hx.
Qed.

(** What a call does: with an identity layer it passes on only requests of a positive size
    and pointers that are not null. *)
Fixpoint has_identity (r : mres) : bool :=
  match r with MIdentity _ _ => true | MSync _ u => has_identity u | _ => false end.
Fixpoint heap_of (r : mres) : option nat :=
  match r with
  | MOwn a => Some (own_heap a) | MHost _ => Some O | MTerminal _ => None
  | MIdentity _ u | MSync _ u => heap_of u
  end.

Lemma allocate_eq : forall r size align w,
  mr_allocate r size align w =
  (if has_identity r && (size =? 0) then (Ret 0, w) else
   match heap_of r with
   | None => (Throw bad_alloc, w)
   | Some h => match m_alloc w h size align with (Some p, w') => (Ret p, w') | (None, w') => (Throw bad_alloc, w') end
   end).
Proof.
  induction r as [a|a|a|a u IH|a u IH]; intros; cbn [mr_allocate has_identity heap_of andb]; auto.
  rewrite IH. destruct (size =? 0); cbn [andb]; [reflexivity|]. rewrite andb_false_r. reflexivity.
Qed.
Lemma deallocate_eq : forall r p size align w,
  mr_deallocate r p size align w =
  (if has_identity r && (p =? 0) then w else
   match heap_of r with None => w | Some h => m_free w h p size align end).
Proof.
  induction r as [a|a|a|a u IH|a u IH]; intros; cbn [mr_deallocate has_identity heap_of andb]; auto.
  rewrite IH. destruct (p =? 0); cbn [andb]; [reflexivity|]. rewrite andb_false_r. reflexivity.
Qed.

Lemma equal_heap : forall a b, objects [a; b] -> mr_is_equal a b = true ->
  heap_of a = heap_of b /\ has_identity a = has_identity b.
Proof.
  induction a as [p|p|p|p u IH|p u IH]; intros b Hob H.
  - assert (MOwn p = b) as <-; [|auto].
    apply (Hob (MOwn p) b); [left|right; left|apply self_below|apply self_below|]; auto. apply Nat.eqb_eq, H.
  - destruct b; try discriminate; auto.
  - destruct b; try discriminate; auto.
  - destruct b as [| | |q v|]; try discriminate. cbn [heap_of has_identity]. split; [|auto].
    apply IH; auto. eapply objects2; eauto; intros x Hx; right; exact Hx.
  - destruct b as [q|q|q|q v|q v]; cbn [mr_is_equal] in H.
    1-4: match type of H with mr_is_equal _ ?b = true => apply (IH b) end; auto; (eapply objects2; eauto; intros x Hx; right; exact Hx).
    apply (IH v); auto. eapply objects2; eauto; intros x Hx; right; exact Hx.
Qed.

Lemma exchange : forall a b size align w p w1, objects [a; b] -> mr_is_equal a b = true ->
  mr_allocate a size align w = (Ret p, w1) -> (p = 0 -> size = 0) ->
  (mlog w1 = mlog w /\ p = 0 /\ forall w2, mr_deallocate b p size align w2 = w2) \/
  (exists h, mlog w1 = (h, UAlloc size align (Some p)) :: mlog w /\
     forall w2, mlog (mr_deallocate b p size align w2) = (h, UFree p size align) :: mlog w2).
Proof.
  intros a b size align w p w1 Hob He H Hp. destruct (equal_heap a b Hob He) as [Hh Hi].
  rewrite allocate_eq in H. rewrite Hi, Hh in H.
  destruct (has_identity b && (size =? 0)) eqn:E.
  - injection H as <- <-. left. repeat split; auto. intros w2. rewrite deallocate_eq.
    apply andb_prop in E. destruct E as [-> _]. reflexivity.
  - destruct (heap_of b) as [h|] eqn:Eh; [|discriminate]. right. exists h.
    unfold m_alloc in H. cbn [fst snd] in H. destruct (morc w (length (mlog w))) as [q|]; [|discriminate].
    injection H as <- <-. cbn [mlog]. split; [reflexivity|]. intros w2. rewrite deallocate_eq, Eh.
    assert (has_identity b && (q =? 0) = false) as ->; [|reflexivity].
    destruct (has_identity b); auto. cbn [andb] in *. lia.
Qed.

(** The innermost resource, and when two of them stand for the same heap. *)
Fixpoint innermost (r : mres) : mres :=
  match r with MIdentity _ u | MSync _ u => innermost u | _ => r end.
Definition same_end (x y : mres) : Prop :=
  match x, y with
  | MOwn a, MOwn b => a = b
  | MHost _, MHost _ => True
  | MTerminal _, MTerminal _ => True
  | _, _ => False
  end.

Lemma fewer_tail : forall k k', fewer k (LSync :: k') -> fewer k k'.
Proof.
  intros k k' H. remember (LSync :: k') as j eqn:Ej. revert k' Ej. induction H as [|l k j H IH|k j H IH]; intros k' Ej.
  - discriminate.
  - injection Ej as -> ->. apply few_drop. exact H.
  - apply few_drop. apply IH, Ej.
Qed.

Lemma equal_exact : forall a b, objects [a; b] ->
  (mr_is_equal a b = true <-> fewer (layers a) (layers b) /\ same_end (innermost a) (innermost b)).
Proof.
  intros a b Hob. split.
  - intro H. split; [apply equal_layers; auto|].
    revert b Hob H. induction a as [p|p|p|p u IH|p u IH]; intros b Hob H.
    + assert (MOwn p = b) as <-; [|reflexivity].
      apply (Hob (MOwn p) b); [left|right; left|apply self_below|apply self_below|]; auto. apply Nat.eqb_eq, H.
    + destruct b; try discriminate; exact I.
    + destruct b; try discriminate; exact I.
    + destruct b as [| | |q v|]; try discriminate. cbn [innermost mr_is_equal] in *. apply IH; auto.
      eapply objects2; eauto; intros x Hx; right; exact Hx.
    + destruct b as [q|q|q|q v|q v]; cbn [mr_is_equal] in H.
      1-4: match type of H with mr_is_equal _ ?b = true => apply (IH b) end; auto; (eapply objects2; eauto; intros x Hx; right; exact Hx).
      apply (IH v); auto. eapply objects2; eauto; intros x Hx; right; exact Hx.
  - intros [Hf He]. clear Hob. revert b Hf He. induction a as [p|p|p|p u IH|p u IH]; intros b Hf He; cbn [layers] in Hf.
    + destruct b as [q|q|q|q v|q v]; cbn [layers] in Hf; try (inversion Hf; fail); cbn [innermost same_end] in He; try contradiction.
      subst. cbn [mr_is_equal mr_addr]. apply Nat.eqb_refl.
    + destruct b as [q|q|q|q v|q v]; cbn [layers] in Hf; try (inversion Hf; fail); cbn [innermost same_end] in He; try contradiction. reflexivity.
    + destruct b as [q|q|q|q v|q v]; cbn [layers] in Hf; try (inversion Hf; fail); cbn [innermost same_end] in He; try contradiction. reflexivity.
    + destruct b as [q|q|q|q v|q v]; cbn [layers] in Hf; try (inversion Hf; fail).
      cbn [mr_is_equal]. apply IH; [inversion Hf; auto|exact He].
    + assert (Hc : forall b', fewer (LSync :: layers u) (layers b') -> (forall q v, b' <> MSync q v) -> fewer (layers u) (layers b')).
      { intros b' Hb Hn. inversion Hb as [|l k k' Hk E1 E2|k k' Hk]; subst; auto.
        destruct b' as [q|q|q|q v|q v]; cbn [layers] in E2; try discriminate. exfalso; eapply Hn; reflexivity. }
      destruct b as [q|q|q|q v|q v]; cbn [mr_is_equal].
      1-4: apply IH; [apply Hc; [exact Hf|discriminate]|exact He].
      apply IH; [|exact He]. cbn [layers] in Hf. inversion Hf; subst; auto. apply fewer_tail. assumption.
Qed.
