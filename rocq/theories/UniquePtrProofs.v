From Verif Require Import Base BaseLemmas IntMath IntMathProofs UniquePtr.
From Coq Require Import Permutation.

(** ** Independent account of memory and object lifetimes

    [B]: blocks obtained and not returned; [O]: objects constructed and not
    destroyed (as address ranges). *)
Definition obj (a esz : Z) : block := mkBlock a esz 1.
Inductive lstep : list block * list block -> ev -> list block * list block -> Prop :=
| l_alloc_fail B O s a : lstep (B, O) (EAlloc s a None) (B, O)
| l_alloc B O s a p : lstep (B, O) (EAlloc s a (Some p)) (mkBlock p s a :: B, O)
| l_free B B' O p s a : Permutation B (mkBlock p s a :: B') ->
    (forall o, In o O -> ~ overlap o (mkBlock p s a)) ->
    lstep (B, O) (EFree p s a) (B', O)
| l_ctor B O a esz b : In b B -> inside (obj a esz) b ->
    (forall o, In o O -> ~ overlap o (obj a esz)) ->
    lstep (B, O) (ECtor a esz) (B, obj a esz :: O)
| l_dtor B O O' a esz : Permutation O (obj a esz :: O') ->
    lstep (B, O) (EDtor a esz) (B, O').
Inductive lsteps : list block * list block -> list ev -> list block * list block -> Prop :=
| ls_nil s : lsteps s [] s
| ls_cons s e s' l s'' : lstep s e s' -> lsteps s' l s'' -> lsteps s (e :: l) s''.

(** The upstream calls of a trace (newest first, as in [Base]). *)
Fixpoint ulog_of (l : list ev) : list uevent :=
  match l with
  | [] => []
  | EAlloc s a r :: l' => ulog_of l' ++ [UAlloc s a r]
  | EFree p s a :: l' => ulog_of l' ++ [UFree p s a]
  | _ :: l' => ulog_of l'
  end.

Lemma ulog_of_app l1 l2 : ulog_of (l1 ++ l2) = ulog_of l2 ++ ulog_of l1.
Proof.
  induction l1 as [|e l1 IH]; simpl; [rewrite app_nil_r; auto|].
  destruct e; rewrite ?IH, ?app_assoc; auto.
Qed.
Lemma upstream_ok_app l1 l2 : upstream_ok (l1 ++ l2) -> upstream_ok l2.
Proof.
  induction l1 as [|e l1 IH]; simpl; auto. destruct e as [s a [p|]|p s a]; tauto.
Qed.

Lemma lsteps_app s l1 s' l2 s'' : lsteps s l1 s' -> lsteps s' l2 s'' -> lsteps s (l1 ++ l2) s''.
Proof. induction 1; simpl; auto. intros. econstructor; eauto. Qed.

Lemma lstep_perm B O e B1 O1 B2 O2 : lstep (B, O) e (B1, O1) ->
  Permutation B B2 -> Permutation O O2 ->
  exists B3 O3, lstep (B2, O2) e (B3, O3) /\ Permutation B1 B3 /\ Permutation O1 O3.
Proof.
  intros H HB HO.
  inversion H as [? ? ? ?|? ? ? ? ?|? ? ? ? ? ? HP HN|? ? ? ? b Hb Hin HN|? ? ? ? ? HP]; subst.
  - exists B2, O2. split; [constructor|auto].
  - exists (mkBlock p s a :: B2), O2. split; [constructor|auto].
  - exists B1, O2. split; [|auto]. constructor.
    + transitivity B; [symmetry; auto|auto].
    + intros o Ho. apply HN. apply Permutation_in with O2; [symmetry; auto|auto].
  - exists B2, (obj a esz :: O2). split; [|auto]. apply l_ctor with b; auto.
    + apply Permutation_in with B1; auto.
    + intros o Ho. apply HN. apply Permutation_in with O2; [symmetry; auto|auto].
  - exists B2, O1. split; [|auto]. constructor. transitivity O; [symmetry; auto|auto].
Qed.

Lemma lsteps_perm s l s' : lsteps s l s' -> forall B2 O2,
  Permutation (fst s) B2 -> Permutation (snd s) O2 ->
  exists B3 O3, lsteps (B2, O2) l (B3, O3) /\ Permutation (fst s') B3 /\ Permutation (snd s') O3.
Proof.
  induction 1 as [s|[B O] e [B1 O1] l s'' H HS IH]; intros B2 O2 HB HO.
  - exists B2, O2. split; [constructor|auto].
  - destruct (lstep_perm _ _ _ _ _ _ _ H HB HO) as (B3 & O3 & H1 & H2 & H3).
    destruct (IH B3 O3 H2 H3) as (B4 & O4 & H4 & H5 & H6).
    exists B4, O4. split; [econstructor; eauto|auto].
Qed.

(** The live blocks of the accounting are those of the upstream log. *)
Lemma lsteps_ulive l : forall s s' w, lsteps s l s' -> Permutation (fst s) (ulive w) ->
  Permutation (fst s') (ulive (ulog_of l ++ w)).
Proof.
  induction l as [|e l IH]; intros s s' w H HP; inversion H; subst; simpl; auto.
  assert (HN : forall w', Permutation (fst s'0) (ulive w') -> Permutation (fst s') (ulive (ulog_of l ++ w'))).
  { intros w' Hw'. eapply IH; eauto. }
  inversion H3; subst; rewrite <- ?app_assoc; cbn [fst app] in *; try (apply HN; auto; fail).
  - apply HN. simpl. constructor. auto.
  - apply HN. simpl. 
    apply Permutation_cons_inv with (mkBlock p s0 a).
    rewrite <- H0. rewrite HP. apply remove1_perm.
    apply Permutation_in with B; auto. apply Permutation_in with (mkBlock p s0 a :: B'); [symmetry; auto|left; auto].
Qed.

(** ** Contents of a unique pointer *)
Definition u_blocks (u : uptr) : list block :=
  if u_ptr u =? 0 then [] else [mkBlock (u_ptr u) (u_size u) max_align].
Fixpoint objs (p esz : Z) (i n : nat) : list block :=
  match n with O => [] | S n' => obj (p + Z.of_nat i * esz) esz :: objs p esz (S i) n' end.
Definition u_objs (u : uptr) : list block :=
  if (u_ptr u =? 0) || negb (u_dtor u) then [] else objs (u_ptr u) (u_esz u) 0 (u_elems u).
Definition s_blocks (s : list uptr) := concat (map u_blocks s).
Definition s_objs (s : list uptr) := concat (map u_objs s).
Definition u_wf (u : uptr) : Prop :=
  u_align u = 0 /\ 0 < u_esz u /\
  (u_ptr u <> 0 -> u_size u = Z.of_nat (u_elems u) * u_esz u).

Lemma objs_in p esz n : forall i o, In o (objs p esz i n) ->
  exists k, (i <= k < i + n)%nat /\ o = obj (p + Z.of_nat k * esz) esz.
Proof.
  induction n as [|n IH]; intros i o H; [destruct H|].
  destruct H as [<-|H]; [exists i; split; auto; lia|].
  destruct (IH _ _ H) as (k & Hk & ->). exists k. split; auto; lia.
Qed.

Lemma obj_inside p esz n k : 0 < esz -> (k < n)%nat ->
  inside (obj (p + Z.of_nat k * esz) esz) (mkBlock p (Z.of_nat n * esz) max_align).
Proof.
  intros He Hk. apply inside_iff; cbn [bsize bptr obj]; auto. 
  assert (Z.of_nat k * esz + esz <= Z.of_nat n * esz) by nia.
  assert (0 <= Z.of_nat k * esz) by nia. lia.
Qed.

Lemma construct_ok p esz n : forall i, exists l, construct p esz i n None = (Ret tt, l) /\
  ulog_of l = [] /\
  forall B O, 0 < esz -> In (mkBlock p (Z.of_nat (i + n) * esz) max_align) B ->
    (forall o k, In o O -> (i <= k < i + n)%nat -> ~ overlap o (obj (p + Z.of_nat k * esz) esz)) ->
    lsteps (B, O) l (B, rev (objs p esz i n) ++ O).
Proof.
  induction n as [|n IH]; intros i.
  - exists []. split; [reflexivity|]. split; [reflexivity|]. constructor.
  - destruct (IH (S i)) as (l & E & EU & HL).
    exists (ECtor (p + Z.of_nat i * esz) esz :: l). cbn [construct]. rewrite E.
    split; [reflexivity|]. split; [exact EU|]. intros B O He HB HO.
    econstructor.
    + eapply l_ctor; [exact HB|apply obj_inside; auto; lia|]. intros o Ho. apply HO; auto. lia.
    + cbn [objs rev]. rewrite <- app_assoc. cbn [app]. apply HL; auto.
      * replace (S i + n)%nat with (i + S n)%nat by lia. auto.
      * intros o k [<-|Ho] Hk; [|apply HO; auto; lia].
        intros (y & Y1 & Y2). unfold in_block, obj in *. cbn [bptr bsize] in *.
        assert (Z.of_nat i * esz + esz <= Z.of_nat k * esz) by nia. lia.
Qed.

Lemma destruct_ok p esz n : forall i B O, lsteps (B, objs p esz i n ++ O) (destruct_all p esz i n) (B, O).
Proof.
  induction n as [|n IH]; intros i B O; cbn [objs destruct_all]; [constructor|].
  econstructor; [|apply IH]. constructor. reflexivity.
Qed.
Lemma destruct_ulog p esz n : forall i, ulog_of (destruct_all p esz i n) = [].
Proof. induction n; intros; simpl; auto. Qed.

Lemma u_destroy_ok u B O : u_wf u ->
  (forall o b, In o O -> In b (u_blocks u) -> ~ overlap o b) ->
  lsteps (u_blocks u ++ B, u_objs u ++ O) (u_destroy u) (B, O).
Proof.
  intros (HA & HE & HS) HO. unfold u_destroy, u_blocks, u_objs in *. rewrite HA.
  destruct (u_ptr u =? 0) eqn:E0; cbn [orb app] in *; [constructor|].
  eapply lsteps_app.
  - destruct (u_dtor u); cbn [negb]; [apply destruct_ok|constructor].
  - econstructor; [|constructor]. change (0 <? 0) with false. constructor; [reflexivity|].
    intros o Ho. apply HO; auto. left. auto.
Qed.

(** ** Invariant of the variables *)
Record sinv (s : list uptr) : Prop := {
  si_wf : Forall u_wf s;
  si_disj : pairwise_disjoint (s_blocks s) }.

Lemma Forall_nth_null s i : Forall u_wf s -> u_wf (get s i).
Proof.
  intros H. unfold get. destruct (nth_in_or_default i s u_null) as [Hi| ->].
  - rewrite Forall_forall in H. auto.
  - split; [reflexivity|]. split; [reflexivity|]. intros N. exfalso. apply N. reflexivity.
Qed.

Lemma concat_upd {A} (f : uptr -> list A) s i : (i < length s)%nat ->
  exists r, Permutation (concat (map f s)) (f (get s i) ++ r) /\
    forall u, Permutation (concat (map f (upd s i u))) (f u ++ r).
Proof.
  revert i. induction s as [|x s IH]; intros i Hi; [simpl in Hi; lia|].
  destruct i as [|i].
  - exists (concat (map f s)). split; [reflexivity|]. intros u. reflexivity.
  - destruct (IH i ltac:(simpl in Hi; lia)) as (r & H1 & H2).
    exists (f x ++ r). cbn [map concat get nth] in *. split.
    + rewrite H1. rewrite !app_assoc. apply Permutation_app_tail. apply Permutation_app_comm.
    + intros u. simpl. rewrite H2. rewrite !app_assoc. apply Permutation_app_tail. apply Permutation_app_comm.
Qed.

(** both lists at once, with a common description of the rest *)
Lemma split_at (s : list uptr) i : (i < length s)%nat -> exists s1 s2,
  s = s1 ++ get s i :: s2 /\ length s1 = i /\ forall u, upd s i u = s1 ++ u :: s2.
Proof.
  revert i. induction s as [|x s IH]; intros i Hi; [simpl in Hi; lia|].
  destruct i as [|i].
  - exists [], s. split; [reflexivity|]. split; reflexivity.
  - destruct (IH i ltac:(simpl in Hi; lia)) as (s1 & s2 & H1 & H2 & H3).
    exists (x :: s1), s2. split; [|split].
    + cbn [app get nth]. f_equal. exact H1.
    + simpl. auto.
    + intros u. simpl. f_equal. apply H3.
Qed.

Lemma s_blocks_mid s1 u s2 : Permutation (s_blocks (s1 ++ u :: s2)) (u_blocks u ++ s_blocks (s1 ++ s2)).
Proof.
  unfold s_blocks. rewrite !map_app, !concat_app. cbn [map concat].
  rewrite !app_assoc. apply Permutation_app_tail. apply Permutation_app_comm.
Qed.
Lemma s_objs_mid s1 u s2 : Permutation (s_objs (s1 ++ u :: s2)) (u_objs u ++ s_objs (s1 ++ s2)).
Proof.
  unfold s_objs. rewrite !map_app, !concat_app. cbn [map concat].
  rewrite !app_assoc. apply Permutation_app_tail. apply Permutation_app_comm.
Qed.

Lemma s_objs_inside s o : Forall u_wf s -> In o (s_objs s) ->
  exists b, In b (s_blocks s) /\ inside o b.
Proof.
  intros HW H. unfold s_objs in H. apply in_concat in H. destruct H as (x & Hx & Ho).
  apply in_map_iff in Hx. destruct Hx as (u & <- & Hu). rewrite Forall_forall in HW.
  destruct (HW u Hu) as (_ & He & HS). unfold u_objs in Ho.
  destruct (u_ptr u =? 0) eqn:E0; [destruct Ho|]. destruct (u_dtor u); [|destruct Ho].
  cbn [orb negb] in Ho. apply objs_in in Ho. destruct Ho as (k & Hk & ->).
  exists (mkBlock (u_ptr u) (u_size u) max_align). split.
  - unfold s_blocks. apply in_concat. exists (u_blocks u). split; [apply in_map; auto|].
    unfold u_blocks. rewrite E0. left. auto.
  - apply Z.eqb_neq in E0. rewrite (HS E0). apply obj_inside; auto. lia.
Qed.

Lemma pd_app_cross l1 l2 b c : pairwise_disjoint (l1 ++ l2) -> In b l1 -> In c l2 -> ~ overlap c b.
Proof.
  induction l1 as [|x l1 IH]; simpl; [tauto|]. intros [H1 H2] [<-|Hb] Hc; [|apply IH; auto].
  intros HO. apply (H1 c); [apply in_or_app; auto|apply overlap_sym; auto].
Qed.

(** Destroying the pointer in one variable. *)
Lemma destroy_mid s1 u s2 B O : Forall u_wf (s1 ++ u :: s2) -> pairwise_disjoint (s_blocks (s1 ++ u :: s2)) ->
  Permutation B (s_blocks (s1 ++ u :: s2)) -> Permutation O (s_objs (s1 ++ u :: s2)) ->
  exists B' O', lsteps (B, O) (u_destroy u) (B', O') /\
    Permutation B' (s_blocks (s1 ++ s2)) /\ Permutation O' (s_objs (s1 ++ s2)).
Proof.
  intros HW HD HB HO.
  assert (HWu : u_wf u) by (rewrite Forall_forall in HW; apply HW; apply in_or_app; right; left; auto).
  assert (HWr : Forall u_wf (s1 ++ s2)).
  { apply Forall_app in HW. destruct HW as [W1 W2]. inversion W2; subst. apply Forall_app. auto. }
  assert (HD' : pairwise_disjoint (u_blocks u ++ s_blocks (s1 ++ s2))).
  { eapply pairwise_disjoint_perm; [apply s_blocks_mid|auto]. }
  pose proof (u_destroy_ok u (s_blocks (s1 ++ s2)) (s_objs (s1 ++ s2)) HWu) as HS.
  assert (HN : forall o b, In o (s_objs (s1 ++ s2)) -> In b (u_blocks u) -> ~ overlap o b).
  { intros o b Ho Hb Hov. destruct (s_objs_inside _ _ HWr Ho) as (c & Hc & Hin).
    apply (pd_app_cross _ _ b c HD' Hb Hc). destruct Hov as (y & Y1 & Y2). exists y. split; auto. }
  edestruct (lsteps_perm _ _ _ (HS HN) B O) as (B' & O' & H1 & H2 & H3).
  - cbn [fst]. rewrite HB. symmetry. apply s_blocks_mid.
  - cbn [snd]. rewrite HO. symmetry. apply s_objs_mid.
  - exists B', O'. split; [exact H1|]. split; symmetry; auto.
Qed.

Definition uop_legal (k : nat) (o : uop) : Prop :=
  match o with
  | UMakeObj i esz n _ | UMakeAlloc i esz n _ => (i < k)%nat /\ 0 < esz /\ Z.of_nat n * esz < 2 ^ 64
  | UMove i j => (i < k)%nat /\ (j < k)%nat
  | UReset i => (i < k)%nat
  end.

(** Relation between the variables, the accounting and the upstream log. *)
Record uinv (s : list uptr) (B O : list block) (w : list uevent) : Prop := {
  ui_wf : Forall u_wf s;
  ui_B : Permutation B (s_blocks s);
  ui_O : Permutation O (s_objs s);
  ui_w : Permutation B (ulive w) }.

Lemma pd_of_perm B w : upstream_ok w -> Permutation B (ulive w) -> pairwise_disjoint B.
Proof. intros HU HP. eapply pairwise_disjoint_perm; [symmetry; exact HP|apply ulive_disjoint; auto]. Qed.

Lemma uinv_perm s s' B O w : Permutation s s' -> uinv s B O w -> uinv s' B O w.
Proof.
  intros HP [W HB HO Hw]. split; auto.
  - eapply Permutation_Forall; eauto.
  - rewrite HB. unfold s_blocks. clear -HP. induction HP; simpl; auto.
    + apply Permutation_app_head. auto.
    + rewrite !app_assoc. apply Permutation_app_tail. apply Permutation_app_comm.
    + etransitivity; eauto.
  - rewrite HO. unfold s_objs. clear -HP. induction HP; simpl; auto.
    + apply Permutation_app_head. auto.
    + rewrite !app_assoc. apply Permutation_app_tail. apply Permutation_app_comm.
    + etransitivity; eauto.
Qed.

(** A newly made pointer, as an additional variable. *)
Lemma new_block_ok s B O w u l : uinv s B O w -> upstream_ok (ulog_of l ++ w) ->
  u_wf u -> (u_ptr u = 0 -> u_objs u = []) ->
  (l = [] /\ u_ptr u = 0 \/
   exists l', l = EAlloc (u_size u) max_align (Some (u_ptr u)) :: l' /\ u_ptr u <> 0 /\ ulog_of l' = [] /\
     (forall B' O', In (mkBlock (u_ptr u) (u_size u) max_align) B' ->
        (forall o, In o O' -> ~ overlap o (mkBlock (u_ptr u) (u_size u) max_align)) ->
        lsteps (B', O') l' (B', rev (u_objs u) ++ O'))) ->
  exists B' O', lsteps (B, O) l (B', O') /\ uinv (u :: s) B' O' (ulog_of l ++ w).
Proof.
  intros [W HB HO Hw] HU Wu Hz [(-> & E0)|(l' & -> & NZ & EL & HS)].
  - exists B, O. split; [constructor|]. split; auto.
    + unfold s_blocks. cbn [map concat]. unfold u_blocks at 1. rewrite E0. exact HB.
    + unfold s_objs. cbn [map concat]. rewrite (Hz E0). exact HO.
  - cbn [ulog_of] in *. rewrite EL in *. cbn [app] in *.
    set (nb := mkBlock (u_ptr u) (u_size u) max_align) in *.
    exists (nb :: B), (rev (u_objs u) ++ O).
    assert (HUn := HU). cbn [upstream_ok] in HUn. destruct HUn as (P1 & P2 & P3 & P4 & HU').
    assert (HN : forall o, In o O -> ~ overlap o nb).
    { intros o Ho Hov. destruct (s_objs_inside s o W) as (b & Hb & Hin).
      - eapply Permutation_in; [exact HO|exact Ho].
      - apply (P4 b).
        + eapply Permutation_in; [exact Hw|]. eapply Permutation_in; [symmetry; exact HB|exact Hb].
        + destruct Hov as (y & Y1 & Y2). exists y. split; [exact Y2|apply Hin; auto]. }
    split; [|split; auto].
    + econstructor; [constructor|]. apply HS; [left; auto|exact HN].
    + unfold s_blocks. cbn [map concat]. unfold u_blocks at 1. rewrite (proj2 (Z.eqb_neq _ _) NZ).
      cbn [app]. constructor. exact HB.
    + unfold s_objs. cbn [map concat]. rewrite HO. apply Permutation_app_tail.
      symmetry. apply Permutation_rev.
    + cbn [ulive]. constructor. exact Hw.
Qed.

Lemma u_destroy_mid_inv s1 u s2 B O w : uinv (s1 ++ u :: s2) B O w -> upstream_ok w ->
  upstream_ok (ulog_of (u_destroy u) ++ w) ->
  exists B' O', lsteps (B, O) (u_destroy u) (B', O') /\
     uinv (s1 ++ s2) B' O' (ulog_of (u_destroy u) ++ w).
Proof.
  intros [W HB HO Hw] HU _.
  assert (HD : pairwise_disjoint (s_blocks (s1 ++ u :: s2))).
  { eapply pairwise_disjoint_perm; [exact HB|]. eapply pd_of_perm; eauto. }
  destruct (destroy_mid s1 u s2 B O W HD HB HO) as (B' & O' & H1 & H2 & H3).
  exists B', O'. split; auto. split; auto.
  - apply Forall_app in W. destruct W as [W1 W2]. inversion W2; subst. apply Forall_app. auto.
  - eapply (lsteps_ulive _ _ _ w H1). exact Hw.
Qed.

Lemma u_wf_null : u_wf u_null.
Proof. split; [reflexivity|]. split; [reflexivity|]. intros N. exfalso. apply N. reflexivity. Qed.

Lemma null_mid s1 s2 B O w : uinv (s1 ++ s2) B O w -> uinv (s1 ++ u_null :: s2) B O w.
Proof.
  intros [W HB HO Hw]. split; auto.
  - apply Forall_app in W. destruct W. apply Forall_app. split; auto. constructor; auto. apply u_wf_null.
  - rewrite HB. symmetry. apply (s_blocks_mid s1 u_null s2).
  - rewrite HO. symmetry. apply (s_objs_mid s1 u_null s2).
Qed.

Lemma mr_alloc_cases s al res : 
  (s = 0 /\ mr_alloc s al res = (Ret 0, [])) \/
  (s <> 0 /\ exists p, res = Some p /\ mr_alloc s al res = (Ret p, [EAlloc s al (Some p)])) \/
  (s <> 0 /\ res = None /\ mr_alloc s al res = (Throw bad_alloc, [EAlloc s al None])).
Proof.
  unfold mr_alloc. destruct (Z.eqb_spec s 0); auto. destruct res as [p|]; right; [left|right]; eauto.
Qed.

Lemma fail_inv s B O w sz al : uinv s B O w ->
  exists B' O', lsteps (B, O) [EAlloc sz al None] (B', O') /\ uinv s B' O' (UAlloc sz al None :: w).
Proof.
  intros [W HB HO Hw]. exists B, O. split; [econstructor; [constructor|constructor]|split; auto].
Qed.

(** Creating a pointer: either it fails without effect, or the new pointer is an
    additional variable. *)
Lemma make_inv (d : bool) s B O w esz n res :
  0 < esz -> Z.of_nat n * esz < 2 ^ 64 -> uinv s B O w ->
  let m := if d then make_unique_obj esz n res None else make_unique_alloc esz n res in
  upstream_ok (ulog_of (snd m) ++ w) ->
  exists B' O', lsteps (B, O) (snd m) (B', O') /\
  match fst m with
  | Ret u => uinv (u :: s) B' O' (ulog_of (snd m) ++ w)
  | _ => uinv s B' O' (ulog_of (snd m) ++ w)
  end.
Proof.
  intros He Hn HI m HU.
  assert (EW : wrap64 (Z.of_nat n * esz) = Z.of_nat n * esz).
  { unfold wrap64, two64. apply Z.mod_small. split; [nia|lia]. }
  set (sz := Z.of_nat n * esz) in *.
  destruct (mr_alloc_cases sz max_align res) as [(Z0 & E)|[(NZ & p & -> & E)|(NZ & -> & E)]].
  - (* nothing to allocate *)
    assert (n = 0%nat) by (unfold sz in Z0; destruct n; auto; nia). subst n.
    assert (Hm : m = (Ret (mkU 0 0 0 0 esz d), [])).
    { unfold m, make_unique_obj, make_unique_alloc. fold sz. rewrite EW, E, Z0. destruct d; reflexivity. }
    rewrite Hm in *. cbn [fst snd] in *.
    apply (new_block_ok s B O w (mkU 0 0 0 0 esz d) []); auto.
    split; [reflexivity|]. split; [exact He|]. intros N. exfalso. apply N. reflexivity.
  - set (u := mkU p sz 0 n esz d).
    destruct (construct_ok p esz n 0) as (lc & EC & EU & HL).
    assert (Hm : m = (Ret u, EAlloc sz max_align (Some p) :: (if d then lc else []))).
    { unfold m, u, make_unique_obj, make_unique_alloc. fold sz. rewrite EW, E. destruct d; [rewrite EC|]; reflexivity. }
    rewrite Hm in *. cbn [fst snd] in *.
    assert (Hp : 0 < p).
    { cbn [ulog_of] in HU. rewrite <- app_assoc in HU. apply upstream_ok_app in HU. cbn in HU. tauto. }
    apply new_block_ok; auto.
    + split; [reflexivity|]. split; [exact He|]. reflexivity.
    + cbn [u_ptr u]. lia.
    + right. exists (if d then lc else []). split; [reflexivity|]. split; [cbn [u_ptr u]; lia|].
      split; [destruct d; auto|]. cbn [u_ptr u_size u]. intros B' O' HB' HO'.
      unfold u_objs. cbn [u_ptr u_dtor u_esz u_elems u].
      destruct (Z.eqb_spec p 0); [lia|]. cbn [orb]. destruct d; cbn [negb]; [|constructor].
      apply HL; auto. intros o k Ho Hk (y & Y1 & Y2). apply (HO' o Ho). exists y. split; auto.
      apply (obj_inside p esz n k He ltac:(lia)). auto.
  - assert (Hm : m = (Throw bad_alloc, [EAlloc sz max_align None])).
    { unfold m, make_unique_obj, make_unique_alloc. fold sz. rewrite EW, E. destruct d; reflexivity. }
    rewrite Hm in *. cbn [fst snd] in *. cbn [ulog_of app] in *. apply fail_inv. auto.
Qed.

Lemma make_step (d : bool) s i B O w esz n res :
  0 < esz -> Z.of_nat n * esz < 2 ^ 64 -> (i < length s)%nat -> uinv s B O w ->
  let m := if d then make_unique_obj esz n res None else make_unique_alloc esz n res in
  forall s' l,
  match m with
  | (Ret u, l) => let '(s', l') := u_assign s i u in (s', l ++ l')
  | (_, l) => (s, l)
  end = (s', l) ->
  upstream_ok (ulog_of l ++ w) ->
  length s' = length s /\
  exists B' O', lsteps (B, O) l (B', O') /\ uinv s' B' O' (ulog_of l ++ w).
Proof.
  intros He Hn Hi HI m s' l E HU.
  destruct m as [r lm] eqn:Em. unfold u_assign in E.
  assert (HUm : upstream_ok (ulog_of lm ++ w)).
  { destruct r; injection E as <- <-; auto. rewrite ulog_of_app, <- app_assoc in HU.
    apply upstream_ok_app in HU. auto. }
  assert (HM := make_inv d s B O w esz n res He Hn HI). fold m in HM. rewrite Em in HM. cbn [fst snd] in HM.
  destruct (HM HUm) as (B1 & O1 & H1 & H2). clear HM.
  destruct r as [u|e|]; injection E as <- <-; [|split; [auto|exists B1, O1; auto]..].
  split; [apply upd_length|].
  destruct (split_at s i Hi) as (s1 & s2 & Es & _ & Hu).
  rewrite Es in H2. rewrite ulog_of_app, <- app_assoc in HU |- *.
  destruct (u_destroy_mid_inv (u :: s1) (get s i) s2 B1 O1 (ulog_of lm ++ w)) as (B2 & O2 & H3 & H4); auto.
  exists B2, O2. split; [eapply lsteps_app; eauto|].
  rewrite Hu. eapply uinv_perm; [|exact H4]. cbn [app]. apply Permutation_middle.
Qed.

Lemma u_step_inv s o B O w s' l : uop_legal (length s) o -> uinv s B O w ->
  u_step s o = (s', l) -> upstream_ok (ulog_of l ++ w) ->
  length s' = length s /\
  exists B' O', lsteps (B, O) l (B', O') /\ uinv s' B' O' (ulog_of l ++ w).
Proof.
  intros HL HI E HU. destruct o as [i esz n res|i esz n res|i j|i]; cbn [u_step uop_legal] in *.
  - destruct HL as (H1 & H2 & H3). eapply (make_step true); eauto.
  - destruct HL as (H1 & H2 & H3). eapply (make_step false); eauto.
  - destruct HL as (H1 & H2). destruct (Nat.eqb_spec i j) as [->|NE].
    + injection E as <- <-. split; auto. exists B, O. split; [constructor|auto].
    + unfold u_assign in E. injection E as <- <-.
      split; [rewrite !upd_length; auto|].
      assert (HP : uinv (get s i :: upd s i u_null) B O w).
      { destruct (split_at s i H1) as (s1 & s2 & Es & _ & Hu). rewrite Hu. rewrite Es in HI.
        assert (HI' : uinv ((get s i :: s1) ++ s2) B O w).
        { eapply uinv_perm; [|exact HI]. symmetry. apply (Permutation_middle s1 s2 (get s i)). }
        apply null_mid in HI'. exact HI'. }
      set (t := upd s i u_null) in *.
      assert (Hj : (j < length t)%nat) by (unfold t; rewrite upd_length; auto).
      destruct (split_at t j Hj) as (t1 & t2 & Et & _ & Hu).
      rewrite Et in HP.
      destruct (u_destroy_mid_inv (get s i :: t1) (get t j) t2 B O w) as (B2 & O2 & H3 & H4); auto.
      { apply upstream_ok_app in HU. auto. }
      exists B2, O2. split; auto. rewrite Hu. eapply uinv_perm; [|exact H4]. apply Permutation_middle.
  - unfold u_assign in E. injection E as <- <-. split; [apply upd_length|].
    destruct (split_at s i HL) as (s1 & s2 & Es & _ & Hu). rewrite Es in HI.
    destruct (u_destroy_mid_inv s1 (get s i) s2 B O w) as (B2 & O2 & H3 & H4); auto.
    { apply upstream_ok_app in HU. auto. }
    exists B2, O2. split; auto. rewrite Hu. apply null_mid. auto.
Qed.

Lemma u_run_inv ops : forall s B O w s' l, Forall (uop_legal (length s)) ops -> uinv s B O w ->
  u_run s ops = (s', l) -> upstream_ok (ulog_of l ++ w) ->
  exists B' O', lsteps (B, O) l (B', O') /\ uinv s' B' O' (ulog_of l ++ w).
Proof.
  induction ops as [|o ops IH]; intros s B O w s' l HL HI E HU; cbn [u_run] in E.
  - injection E as <- <-. exists B, O. split; [constructor|auto].
  - destruct (u_step s o) as [s1 l1] eqn:E1. destruct (u_run s1 ops) as [s2 l2] eqn:E2.
    injection E as <- <-. rewrite ulog_of_app, <- app_assoc in HU |- *. inversion HL; subst.
    destruct (u_step_inv s o B O w s1 l1) as (Hlen & B1 & O1 & H3 & H4); auto.
    { apply upstream_ok_app in HU. auto. }
    destruct (IH s1 B1 O1 (ulog_of l1 ++ w) s2 l2) as (B2 & O2 & H5 & H6); auto; [rewrite Hlen; auto|].
    exists B2, O2. split; auto. eapply lsteps_app; eauto.
Qed.

Lemma u_end_inv s : forall B O w, uinv s B O w -> upstream_ok (ulog_of (u_end s) ++ w) ->
  lsteps (B, O) (u_end s) ([], []).
Proof.
  induction s as [|u s IH]; intros B O w HI HU.
  - destruct HI as [_ HB HO _]. unfold s_blocks, s_objs in *. cbn in HB, HO.
    apply Permutation_sym, Permutation_nil in HB. apply Permutation_sym, Permutation_nil in HO. subst.
    constructor.
  - unfold u_end in *. cbn [map concat] in *. rewrite ulog_of_app, <- app_assoc in HU.
    destruct (u_destroy_mid_inv [] u s B O w) as (B1 & O1 & H1 & H2); auto.
    { apply upstream_ok_app in HU. apply upstream_ok_app in HU. auto. }
    { apply upstream_ok_app in HU. auto. }
    eapply lsteps_app; [exact H1|]. eapply IH; eauto.
Qed.

Lemma uinv_init k : uinv (repeat u_null k) [] [] [].
Proof.
  split.
  - apply Forall_forall. intros u Hu. apply repeat_spec in Hu. subst. apply u_wf_null.
  - induction k; simpl; auto.
  - induction k; simpl; auto.
  - reflexivity.
Qed.

Lemma u_life k ops s l : Forall (uop_legal k) ops -> u_run (repeat u_null k) ops = (s, l) ->
  upstream_ok (ulog_of (l ++ u_end s)) -> lsteps ([], []) (l ++ u_end s) ([], []).
Proof.
  intros HL E HU. rewrite ulog_of_app in HU.
  destruct (u_run_inv ops (repeat u_null k) [] [] [] s l) as (B & O & H1 & H2); auto.
  - rewrite repeat_length. auto.
  - apply uinv_init.
  - rewrite app_nil_r. apply upstream_ok_app in HU. auto.
  - eapply lsteps_app; [exact H1|]. eapply u_end_inv; [exact H2|]. rewrite app_nil_r. auto.
Qed.

(** ** Alignment of the constructed objects *)
Lemma construct_addr p esz n : forall i fail r l a e, construct p esz i n fail = (r, l) ->
  In (ECtor a e) l -> exists k, a = p + Z.of_nat k * esz /\ (k < i + n)%nat.
Proof.
  induction n as [|n IH]; intros i fail r l a e E H; cbn [construct] in E.
  - injection E as <- <-. destruct H.
  - assert (G : forall r' l', construct p esz (S i) n fail = (r', l') ->
       In (ECtor a e) (ECtor (p + Z.of_nat i * esz) esz :: l') ->
       exists k, a = p + Z.of_nat k * esz /\ (k < i + S n)%nat).
    { intros r' l' E' [H'|H']; [injection H' as <- <-; exists i; split; auto; lia|].
      destruct (IH _ _ _ _ _ _ E' H') as (k & Hk & Hk2). exists k. split; auto. lia. }
    destruct (construct p esz (S i) n fail) as [r' l'] eqn:E'.
    destruct fail as [k|].
    + destruct (Nat.eqb k i); injection E as <- <-; [destruct H|]. eapply G; eauto.
    + injection E as <- <-. eapply G; eauto.
Qed.

Lemma make_obj_aligned esz n p fail r l a e al : pow2 al -> al <= 16 -> (al | esz) -> (max_align | p) ->
  make_unique_obj esz n (Some p) fail = (r, l) -> In (ECtor a e) l -> (al | a).
Proof.
  intros (k & Hk & Ek) Hal He Hp E H.
  assert (D16 : (al | max_align)).
  { assert (k <= 4).
    { destruct (Z_le_gt_dec k 4); auto. assert (2 ^ 5 <= 2 ^ k) by (apply Z.pow_le_mono_r; lia). lia. }
    exists (2 ^ (4 - k)). rewrite Ek, <- Z.pow_add_r by lia. replace (4 - k + k) with 4 by lia. reflexivity. }
  unfold make_unique_obj in E. unfold mr_alloc in E.
  assert (G : forall q r' l', (al | q) -> construct q esz 0 n fail = (r', l') ->
     In (ECtor a e) l' -> (al | a)).
  { intros q r' l' Hq E' H'. destruct (construct_addr _ _ _ _ _ _ _ _ _ E' H') as (j & -> & _).
    apply Z.divide_add_r; auto. apply Z.divide_mul_r. auto. }
  destruct (wrap64 _ =? 0).
  - destruct (construct 0 esz 0 n fail) as [r' l'] eqn:E'. apply (G 0 r' l'); auto; [apply Z.divide_0_r|].
    destruct r'; injection E as <- <-; auto.
  - destruct (construct p esz 0 n fail) as [r' l'] eqn:E'. apply (G p r' l'); auto.
    + apply Z.divide_trans with max_align; auto.
    + destruct r'; injection E as <- <-; destruct H as [H|H]; try discriminate; auto.
Qed.

Lemma object_pair esz al res p l : 0 < esz < 2 ^ 64 -> new_object esz al res false = (Ret p, l) ->
  res = Some p /\ (p <> 0 ->
  l ++ delete_object esz al p =
    [EAlloc esz al (Some p); ECtor p esz; EDtor p esz; EFree p esz al]).
Proof.
  intros He E. unfold new_object, allocate_object, mr_alloc in E.
  rewrite Z.mul_1_l in E. assert (EW : wrap64 esz = esz) by (unfold wrap64, two64; apply Z.mod_small; lia).
  rewrite EW in E. rewrite (proj2 (Z.eqb_neq esz 0)) in E by lia.
  destruct res as [q|]; [|discriminate]. injection E as <- <-. split; auto. intros N.
  unfold delete_object, deallocate_object. rewrite Z.mul_1_l, EW, (proj2 (Z.eqb_neq q 0) N). reflexivity.
Qed.
Lemma array_pair esz al n res p l : allocate_object esz al n res = (Ret p, l) -> p <> 0 ->
  exists s, l ++ deallocate_object esz al n p = [EAlloc s al (Some p); EFree p s al] /\
    (0 <= n * esz < 2 ^ 64 -> s = n * esz).
Proof.
  unfold allocate_object, mr_alloc, deallocate_object. intros E N.
  exists (wrap64 (n * esz)). rewrite (proj2 (Z.eqb_neq p 0) N).
  destruct (wrap64 (n * esz) =? 0); [injection E as <- <-; congruence|].
  destruct res as [q|]; [|discriminate]. injection E as <- <-. split; [reflexivity|].
  intros H. unfold wrap64, two64. apply Z.mod_small. lia.
Qed.

(** ** Byte counts *)
Lemma mr_alloc_size size align res r l s a q : mr_alloc size align res = (r, l) -> In (EAlloc s a q) l -> s = size.
Proof.
  unfold mr_alloc. destruct (size =? 0); [intros [= <- <-] []|].
  destruct res; intros [= <- <-] [[= <- <- <-]|[]]; auto.
Qed.
Lemma construct_no_alloc p esz n fail : forall i r l s a q, construct p esz i n fail = (r, l) -> ~ In (EAlloc s a q) l.
Proof.
  induction n as [|n IH]; intros i r l s a q E H; cbn [construct] in E; [injection E as <- <-; destruct H|].
  destruct fail as [k|].
  - destruct (Nat.eqb k i); [injection E as <- <-; destruct H|].
    destruct (construct p esz (S i) n (Some k)) as [r1 l1] eqn:E1. injection E as <- <-.
    destruct H as [H|H]; [discriminate|]. exact (IH _ _ _ _ _ _ E1 H).
  - destruct (construct p esz (S i) n None) as [r1 l1] eqn:E1. injection E as <- <-.
    destruct H as [H|H]; [discriminate|]. exact (IH _ _ _ _ _ _ E1 H).
Qed.
Lemma wrap64_fits n : 0 <= n < 2 ^ 64 -> wrap64 n = n.
Proof. intros H. unfold wrap64, two64. now apply Z.mod_small. Qed.

Lemma byte_counts esz n al fail : 0 < esz -> Z.of_nat n * esz < 2 ^ 64 ->
  (forall res u l s a q, make_unique_obj esz n res fail = (Ret u, l) -> In (EAlloc s a q) l -> s = Z.of_nat n * esz) /\
  (forall res u l s a q, make_unique_alloc esz n res = (Ret u, l) -> In (EAlloc s a q) l -> s = Z.of_nat n * esz) /\
  (forall res p l s a q, allocate_object esz al (Z.of_nat n) res = (Ret p, l) -> In (EAlloc s a q) l -> s = Z.of_nat n * esz).
Proof.
  intros HE HN. assert (HW : wrap64 (Z.of_nat n * esz) = Z.of_nat n * esz) by (apply wrap64_fits; nia).
  split; [|split].
  - intros res u l s a q E H. unfold make_unique_obj in E. rewrite HW in E. cbv zeta in E.
    destruct (mr_alloc (Z.of_nat n * esz) max_align res) as [[p|e|] l0] eqn:EM; try discriminate.
    destruct (construct p esz 0 n fail) as [[x|e|] l1] eqn:EC; try discriminate. injection E as <- <-.
    apply in_app_or in H. destruct H as [H|H]; [eapply mr_alloc_size; eauto|].
    exfalso. eapply construct_no_alloc; eauto.
  - intros res u l s a q E H. unfold make_unique_alloc in E. rewrite HW in E. cbv zeta in E.
    destruct (mr_alloc (Z.of_nat n * esz) max_align res) as [[p|e|] l0] eqn:EM; try discriminate.
    injection E as <- <-. eapply mr_alloc_size; eauto.
  - intros res p l s a q E H. unfold allocate_object in E. rewrite HW in E.
    eapply mr_alloc_size; eauto.
Qed.

Lemma construct_throws p esz k : forall n i, (k < n)%nat ->
  construct p esz i n (Some (i + k)%nat) = (Throw runtime_error, map (fun j => ECtor (p + Z.of_nat j * esz) esz) (seq i k)).
Proof.
  induction k as [|k IH]; intros n i H; (destruct n as [|n]; [lia|]); cbn [construct seq map].
  - rewrite Nat.add_0_r, Nat.eqb_refl. reflexivity.
  - destruct (Nat.eqb_spec (i + S k) i); [lia|]. replace (i + S k)%nat with (S i + k)%nat by lia.
    rewrite IH by lia. reflexivity.
Qed.
Lemma make_obj_throws esz n k p : 0 < esz -> Z.of_nat n * esz < 2 ^ 64 -> (k < n)%nat ->
  make_unique_obj esz n (Some p) (Some k) =
    (Throw runtime_error, EAlloc (Z.of_nat n * esz) 16 (Some p) :: map (fun i => ECtor (p + Z.of_nat i * esz) esz) (seq 0 k)).
Proof.
  intros HE HN HK. unfold make_unique_obj. rewrite wrap64_fits by nia. cbv zeta.
  unfold mr_alloc. rewrite (proj2 (Z.eqb_neq _ 0)) by nia.
  change (Some k) with (Some (0 + k)%nat). rewrite construct_throws by auto. reflexivity.
Qed.
