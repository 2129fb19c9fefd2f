(** Proofs about get_data of SoA containers in host memory. *)
From Verif Require EdmHost EdmHostProofs.
From Verif Require Import EdmHostData ViewsProofs EdmDevice.
From Coq Require Import Permutation.

(** The calls of the memory resource, newest first, after the calls [h]. *)
Definition hist (l : list ev) (h : list uevent) : list uevent :=
  fold_left (fun h e => match e with EAlloc s a r => UAlloc s a r :: h | EFree p s a => UFree p s a :: h | _ => h end) l h.
Lemma hist_app l l' h : hist (l ++ l') h = hist l' (hist l h).
Proof. apply fold_left_app. Qed.
Lemma hist_ok l : forall h, upstream_ok (hist l h) -> upstream_ok h.
Proof.
  induction l as [|e l IH]; intros h H; [exact H|]. cbn [hist fold_left] in H. apply IH in H.
  destruct e as [s a [p|]|p s a|a s|a s]; cbn [upstream_ok] in H; tauto.
Qed.

Definition own_block (o : own) : list block :=
  if u_ptr (snd o) =? 0 then [] else [mkBlock (u_ptr (snd o)) (u_size (snd o)) 16].
Definition own_jag (n : nat) (o : own) : Prop :=
  n = O /\ o = own_none \/
  (0 < n)%nat /\ exists p, 0 < p /\ o = (mkJ (Z.of_nat n) p p, mkU p (24 * Z.of_nat n) 0 n 24 false).
Definition own_for (n : nat) (x : eplace) (o : own) : Prop :=
  match x with PJag _ => own_jag n o | _ => o = own_none end.

Definition failed (l : list ev) : Prop := exists s a, In (EAlloc s a None) l.

Lemma destroy_one n o h B : own_jag n o \/ o = own_none -> frees_ok h -> upstream_ok h ->
  Permutation (ulive h) (own_block o ++ B) ->
  frees_ok (hist (jdata_destroy o) h) /\ upstream_ok (hist (jdata_destroy o) h) /\ Permutation (ulive (hist (jdata_destroy o) h)) B.
Proof.
  intros H HF HU HP.
  assert (G : own_block o = [] /\ jdata_destroy o = [] \/ exists p s, own_block o = [mkBlock p s 16] /\ jdata_destroy o = [EFree p s 16]).
  { destruct H as [[(_ & ->)|(_ & p & Hp & ->)]| ->]; [left; split; reflexivity| |left; split; reflexivity].
    right. exists p, (24 * Z.of_nat n). unfold own_block, jdata_destroy, u_destroy. cbn [snd u_ptr u_dtor u_size u_align].
    destruct (Z.eqb_spec p 0); [lia|]. split; reflexivity. }
  destruct G as [(E1 & E2)|(p & s & E1 & E2)]; rewrite E1 in HP; rewrite E2; cbn [app] in HP; cbn [hist fold_left].
  - auto.
  - assert (IN : In (mkBlock p s 16) (ulive h)) by (rewrite HP; left; reflexivity).
    cbn [frees_ok upstream_ok ulive]. split; [split; assumption|]. split; [exact HU|].
    apply (Permutation_cons_inv (a := mkBlock p s 16)). rewrite <- (remove1_perm _ _ IN). exact HP.
Qed.

Lemma destroy_all n ps os : Forall2 (own_for n) ps os -> forall h B, frees_ok h -> upstream_ok h ->
  Permutation (ulive h) (flat_map own_block os ++ B) ->
  frees_ok (hist (flat_map jdata_destroy os) h) /\ upstream_ok (hist (flat_map jdata_destroy os) h) /\
  Permutation (ulive (hist (flat_map jdata_destroy os) h)) B.
Proof.
  induction 1 as [|x o ps os HO HF IH]; intros h B H1 H2 HP; cbn [flat_map] in *; [auto|].
  rewrite <- app_assoc in HP. rewrite hist_app.
  destruct (destroy_one n o h (flat_map own_block os ++ B)) as (A1 & A2 & A3); auto.
  destruct x; cbn [own_for] in HO; auto.
Qed.

Lemma jdata_new_cases n res : 24 * Z.of_nat n < 2 ^ 64 ->
  n = O /\ jdata_new n res = (Ret own_none, []) \/
  (0 < n)%nat /\ res = None /\ jdata_new n res = (Throw bad_alloc, [EAlloc (24 * Z.of_nat n) 16 None]) \/
  (0 < n)%nat /\ exists p, res = Some p /\
    jdata_new n res = (Ret (mkJ (Z.of_nat n) p p, mkU p (24 * Z.of_nat n) 0 n 24 false), [EAlloc (24 * Z.of_nat n) 16 (Some p)]).
Proof.
  intros H. unfold jdata_new. destruct n as [|n]; [left; auto|right].
  unfold make_unique_alloc, mr_alloc. unfold IntMath.wrap64, IntMath.two64.
  rewrite (Z.mod_small (Z.of_nat (S n) * 24)) by lia. rewrite (Z.mul_comm _ 24).
  destruct (Z.eqb_spec (24 * Z.of_nat (S n)) 0); [lia|]. destruct res as [p|]; [right|left].
  - split; [lia|]. exists p. split; reflexivity.
  - split; [lia|]. split; reflexivity.
Qed.

Lemma alloc_own_thm n ps ans : 24 * Z.of_nat n < 2 ^ 64 -> forall k h B r l k',
  alloc_own n ps ans k = (r, l, k') -> upstream_ok (hist l h) -> frees_ok h -> Permutation (ulive h) B ->
  frees_ok (hist l h) /\
  ((exists os, r = Ret os /\ Forall2 (own_for n) ps os /\ Permutation (ulive (hist l h)) (flat_map own_block os ++ B)) \/
   (r = Throw bad_alloc /\ Permutation (ulive (hist l h)) B /\ failed l)).
Proof.
  intros HN. induction ps as [|x ps IH]; intros k h B r l k' E HU HF HP; cbn [alloc_own] in E.
  - injection E as <- <- <-. split; [exact HF|]. left. exists []. split; [reflexivity|]. split; [constructor|exact HP].
  - assert (NJ : (forall rows, x <> PJag rows) ->
      frees_ok (hist l h) /\ ((exists os, r = Ret os /\ Forall2 (own_for n) (x :: ps) os /\ Permutation (ulive (hist l h)) (flat_map own_block os ++ B)) \/
      (r = Throw bad_alloc /\ Permutation (ulive (hist l h)) B /\ failed l))).
    { intros NJ. assert (E' : (match alloc_own n ps ans k with (Ret os, l', k') => (Ret (own_none :: os), l', k') | r => r end) = (r, l, k'))
        by (destruct x; [exact E|exact E|exfalso; eapply NJ; reflexivity]).
      destruct (alloc_own n ps ans k) as [[r1 l1] k1] eqn:EA. assert (EL : l1 = l) by (destruct r1; congruence). subst l1.
      destruct (IH _ _ _ _ _ _ EA HU HF HP) as (A1 & [(os & -> & A2 & A3)|(-> & A2 & A3)]); split; try exact A1.
      - injection E' as <- <-. left. exists (own_none :: os). split; [reflexivity|].
        split; [constructor; [destruct x; [reflexivity|reflexivity|exfalso; eapply NJ; reflexivity]|exact A2]|exact A3].
      - injection E' as <- <-. right. auto. }
    destruct x as [p|c p|rows]; [apply NJ; discriminate|apply NJ; discriminate|clear NJ].
    destruct (jdata_new_cases n (ans k) HN) as [(-> & EN)|[(Hn & ER & EN)|(Hn & p & ER & EN)]]; rewrite EN in E.
    + cbn [length] in E. destruct (alloc_own 0 ps ans (k + 0)) as [[r1 l1] k1] eqn:EA. cbn [app] in E.
      destruct r1 as [os1|e1|]; [injection E as <- <- <-| |].
      * destruct (IH _ _ _ _ _ _ EA HU HF HP) as (A1 & [(os & [= <-] & A2 & A3)|([=] & _)]). split; [exact A1|]. left.
        exists (own_none :: os1). split; [reflexivity|]. split; [constructor; [left; auto|exact A2]|exact A3].
      * change (jdata_destroy own_none) with (@nil ev) in E. rewrite app_nil_r in E. injection E as <- <- <-.
        destruct (IH _ _ _ _ _ _ EA HU HF HP) as (A1 & [(os & [=] & _)|([= ->] & A2 & A3)]). split; [exact A1|]. right. auto.
      * injection E as <- <- <-. destruct (IH _ _ _ _ _ _ EA HU HF HP) as (A1 & [(os & [=] & _)|([=] & _)]).
    + injection E as <- <- <-. split; [exact HF|]. right. split; [reflexivity|]. split; [exact HP|].
      eexists _, _. left. reflexivity.
    + set (o := (mkJ (Z.of_nat n) p p, mkU p (24 * Z.of_nat n) 0 n 24 false) : own) in *.
      set (b := mkBlock p (24 * Z.of_nat n) 16).
      destruct (alloc_own n ps ans (k + length [EAlloc (24 * Z.of_nat n) 16 (Some p)])) as [[r1 l1] k1] eqn:EA.
      assert (HU1 : upstream_ok (hist l1 (UAlloc (24 * Z.of_nat n) 16 (Some p) :: h))).
      { destruct r1; injection E as <- <- <-; cbn [app hist fold_left] in HU; [exact HU| |exact HU].
        rewrite (fold_left_app _ l1) in HU. apply (hist_ok (jdata_destroy o)). exact HU. }
      pose proof (hist_ok _ _ HU1) as HU0. cbn [upstream_ok] in HU0. destruct HU0 as (P0 & _).
      assert (OB : own_block o = [b]) by (unfold own_block, o; cbn [snd u_ptr u_size]; destruct (Z.eqb_spec p 0); [lia|reflexivity]).
      assert (OJ : own_jag n o) by (right; split; [exact Hn|]; exists p; auto).
      destruct (IH _ (UAlloc (24 * Z.of_nat n) 16 (Some p) :: h) (b :: B) _ _ _ EA HU1 HF) as (A1 & [(os & -> & A2 & A3)|(-> & A2 & A3)]);
        [cbn [ulive]; constructor; exact HP| |].
      * injection E as <- <- <-. split; [exact A1|]. left. exists (o :: os). split; [reflexivity|].
        split; [constructor; [exact OJ|exact A2]|]. cbn [flat_map]. rewrite OB. cbn [app hist fold_left] in *.
        rewrite A3. symmetry. apply Permutation_middle.
      * injection E as <- <- <-. cbn [app hist fold_left]. rewrite (fold_left_app _ l1).
        destruct (destroy_one n o (hist l1 (UAlloc (24 * Z.of_nat n) 16 (Some p) :: h)) B) as (D1 & _ & D3); auto.
        { rewrite OB. exact A2. }
        split; [exact D1|]. right. split; [reflexivity|]. split; [exact D3|].
        destruct A3 as (s & a & A3). exists s, a. right. apply in_or_app. left. exact A3.
Qed.

(** ** Filling the views *)

Lemma jgd_cases rows res m : 24 * Z.of_nat (length rows) < 2 ^ 64 ->
  (forall p, res = Some p -> (0 < length rows)%nat -> 0 < p /\ acc m p (24 * Z.of_nat (length rows))) ->
  rows = [] /\ jagged_get_data rows res m = (Ret own_none, [], m) \/
  (0 < length rows)%nat /\ res = None /\ jagged_get_data rows res m = (Throw bad_alloc, [EAlloc (24 * Z.of_nat (length rows)) 16 None], m) \/
  (0 < length rows)%nat /\ exists p m', res = Some p /\
    jagged_get_data rows res m = (Ret (mkJ (Z.of_nat (length rows)) p p, mkU p (24 * Z.of_nat (length rows)) 0 (length rows) 24 false),
      [EAlloc (24 * Z.of_nat (length rows)) 16 (Some p)], m') /\
    changes (within p (24 * Z.of_nat (length rows))) m m' /\ same_acc m m' /\
    forall i c q, nth_error rows i = Some (c, q) -> 0 <= q < 2 ^ 64 ->
      jdv_at (mkJ (Z.of_nat (length rows)) p p) (Z.of_nat i) m' = Ret (Copy.mkV (c mod 2 ^ 32) 0 q).
Proof.
  intros HN HA. unfold jagged_get_data.
  destruct (jdata_new_cases (length rows) res HN) as [(E0 & EN)|[(Hn & ER & EN)|(Hn & p & ER & EN)]]; rewrite EN.
  - left. destruct rows; [|discriminate]. split; reflexivity.
  - right. left. auto.
  - right. right. split; [exact Hn|]. destruct (HA p ER Hn) as (Hp & Ha).
    destruct (jdata_fill_thm rows p m Ha) as (m' & E & C & S & N). cbn [j_host]. rewrite E.
    exists p, m'. split; [exact ER|]. split; [reflexivity|]. split; [exact C|]. split; [exact S|].
    intros i c q Hi Hq. unfold jdv_at, assert. cbn [j_size j_ptr].
    assert (i < length rows)%nat by (apply nth_error_Some; congruence).
    destruct (Z.ltb_spec (Z.of_nat i) (Z.of_nat (length rows))); [|lia].
    rewrite (N i _ Hi). rewrite view_of_view_bytes; [reflexivity|..]; unfold vector_data, view_fixed; cbn [Copy.v_cap Copy.v_sizep Copy.v_ptr fst snd]; lia.
Qed.

Definition filled (n : nat) (m : cmem) (x : eplace) (y : dview * own) : Prop :=
  own_for n x (snd y) /\
  match x with
  | PScalar p => fst y = DScalar p
  | PVec c p => fst y = DVec (vector_data (Z.of_nat c, p))
  | PJag rows => fst y = DJag (fst (snd y)) /\
      forall i c q, nth_error rows i = Some (c, q) -> 0 <= q < 2 ^ 64 ->
        jdv_at (fst (snd y)) (Z.of_nat i) m = Ret (Copy.mkV (c mod 2 ^ 32) 0 q)
  end.

(** The bytes outside the blocks [B]. *)
Definition outside (B : list block) (x : Z) : Prop := forall b, In b B -> ~ in_block x b.

Lemma filled_changes n m m' B x y : filled n m x y -> (forall rows, x = PJag rows -> length rows = n) ->
  changes (outside (own_block (snd y) ++ B)) m m' -> filled n m' x y.
Proof.
  intros (HO & H) HL C. split; [exact HO|]. destruct x as [p|c p|rows]; auto. destruct H as (H1 & H2). split; [exact H1|].
  intros i c q Hi Hq. specialize (H2 i c q Hi Hq). specialize (HL rows eq_refl).
  assert (IL : (i < length rows)%nat) by (apply nth_error_Some; congruence).
  cbn [own_for] in HO. destruct HO as [(-> & _)|(Hn & p & Hp & EO)]; [lia|]. rewrite EO in *.
  cbn [fst snd] in *. unfold jdv_at in *. cbn [j_size j_ptr] in *.
  rewrite (changes_get _ _ _ _ _ C); [exact H2|].
  intros a Ha Hb. specialize (Hb (mkBlock p (24 * Z.of_nat n) 16)). apply Hb.
  - unfold own_block. cbn [snd u_ptr u_size]. destruct (Z.eqb_spec p 0); [lia|]. left. reflexivity.
  - unfold within in Ha. unfold in_block. cbn [bptr bsize]. lia.
Qed.

Lemma fill_log rows ps o os ans k m p r l m' : 24 * Z.of_nat (length rows) < 2 ^ 64 -> (0 < length rows)%nat -> ans k = Some p ->
  fill (PJag rows :: ps) (o :: os) ans k m = (r, l, m') -> exists l', l = EAlloc (24 * Z.of_nat (length rows)) 16 (Some p) :: l'.
Proof.
  intros HN Hn EK E. cbn [fill] in E. rewrite EK in E. unfold jagged_get_data in E.
  destruct (jdata_new_cases (length rows) (Some p) HN) as [(E0 & EN)|[(_ & ER & EN)|(_ & p' & [= <-] & EN)]]; [lia|discriminate|].
  rewrite EN in E. cbn [j_host] in E. destruct (jdata_fill p rows m) as [[[]|e|] m1].
  - match type of E with context [fill ps os ans ?k' m1] => destruct (fill ps os ans k' m1) as [[[ys|e|] l2] m2] end;
      injection E as <- <- <-; eexists; reflexivity.
  - injection E as <- <- <-. eexists; reflexivity.
  - injection E as <- <- <-. eexists; reflexivity.
Qed.

Lemma live_new_outside h s a p : upstream_ok (UAlloc s a (Some p) :: h) ->
  forall b, In b (ulive h) -> forall x, within p s x -> ~ in_block x b.
Proof.
  cbn [upstream_ok]. intros (_ & _ & _ & H & _) b Hb x Hx Hi. apply (H b Hb). exists x. split; [exact Hx|exact Hi].
Qed.

Lemma fill_thm n ans : 24 * Z.of_nat n < 2 ^ 64 -> forall ps os k m h B r l m',
  fill ps os ans k m = (r, l, m') -> Forall2 (own_for n) ps os -> (forall rows, In (PJag rows) ps -> length rows = n) ->
  upstream_ok (hist l h) -> frees_ok h -> Permutation (ulive h) (flat_map own_block os ++ B) ->
  (forall s p, In (EAlloc s 16 (Some p)) l -> acc m p s) ->
  frees_ok (hist l h) /\ same_acc m m' /\ changes (outside B) m m' /\
  ((exists ys, r = Ret ys /\ Forall2 (filled n m') ps ys /\ Permutation (ulive (hist l h)) (flat_map own_block (map snd ys) ++ B)) \/
   (r = Throw bad_alloc /\ Permutation (ulive (hist l h)) B /\ failed l)).
Proof.
  intros HN. induction ps as [|x ps IH]; intros os k m h B r l m' E HO HL HU HF HP HA.
  - inversion HO; subst. cbn [fill] in E. injection E as <- <- <-. split; [exact HF|]. split; [apply same_acc_refl|].
    split; [apply changes_refl|]. left. exists []. split; [reflexivity|]. split; [constructor|exact HP].
  - inversion HO as [|? o ? os' Ho HO' E1 E2]; subst.
    assert (HL' : forall rows, In (PJag rows) ps -> length rows = n) by (intros; apply HL; right; assumption).
    (* the rest of the variables, once [x] has the view [d] and the object [o'] *)
    assert (NEXT : forall d o' k1 m1 h1 r1 l1 m2, fill ps os' ans k1 m1 = (r1, l1, m2) ->
      frees_ok h1 -> upstream_ok (hist l1 h1) ->
      Permutation (ulive h1) (flat_map own_block os' ++ own_block o' ++ B) -> filled n m1 x (d, o') ->
      (forall s p, In (EAlloc s 16 (Some p)) l1 -> acc m1 p s) ->
      let '(r2, l2) := match r1 with Ret ys => (Ret ((d, o') :: ys), l1) | Throw e => (Throw e, l1 ++ jdata_destroy o') | UB => (UB, l1) end in
      frees_ok (hist l2 h1) /\ same_acc m1 m2 /\ changes (outside B) m1 m2 /\
      ((exists ys, r2 = Ret ys /\ Forall2 (filled n m2) (x :: ps) ys /\ Permutation (ulive (hist l2 h1)) (flat_map own_block (map snd ys) ++ B)) \/
       (r2 = Throw bad_alloc /\ Permutation (ulive (hist l2 h1)) B /\ failed l2))).
    { intros d o' k1 m1 h1 r1 l1 m2 EF F1 U1 P1 FI A1.
      destruct (IH _ _ _ _ _ _ _ _ EF HO' HL' U1 F1 P1 A1) as (R1 & R2 & R3 & R4).
      assert (C' : changes (outside B) m1 m2).
      { eapply changes_weaken; [exact R3|]. intros y Hy b Hb. apply Hy. apply in_or_app. right. exact Hb. }
      destruct R4 as [(ys & -> & F2 & P2)|(-> & P2 & FA)].
      - split; [exact R1|]. split; [exact R2|]. split; [exact C'|]. left. exists ((d, o') :: ys). split; [reflexivity|].
        split; [constructor; [|exact F2]|].
        + apply (filled_changes n m1 m2 B); [exact FI| |exact R3]. intros rows ->. apply HL. left. reflexivity.
        + cbn [map snd flat_map]. rewrite P2. rewrite !app_assoc. apply Permutation_app_tail. apply Permutation_app_comm.
      - rewrite hist_app. destruct FI as (FO & _). cbn [snd] in FO.
        destruct (destroy_one n o' (hist l1 h1) B) as (D1 & _ & D3); auto.
        { destruct x; cbn [own_for] in FO; auto. }
        split; [exact D1|]. split; [exact R2|]. split; [exact C'|]. right. split; [reflexivity|]. split; [exact D3|].
        destruct FA as (s & a & FA). exists s, a. apply in_or_app. left. exact FA. }
    cbn [flat_map] in HP.
    assert (HP' : Permutation (ulive h) (flat_map own_block os' ++ own_block o ++ B)).
    { rewrite HP. rewrite !app_assoc. apply Permutation_app_tail. apply Permutation_app_comm. }
    destruct x as [p|c p|rows].
    + cbn [fill] in E. destruct (fill ps os' ans k m) as [[r1 l1] m2] eqn:EF.
      assert (U1 : upstream_ok (hist l1 h)).
      { destruct r1; injection E as <- <- <-; cbn [app] in HU; [exact HU| |exact HU]. rewrite hist_app in HU. apply hist_ok in HU. exact HU. }
      specialize (NEXT (DScalar p) o k m h r1 l1 m2 EF HF U1 HP').
      destruct r1 as [ys|e|]; injection E as <- <- <-; cbn [app] in *; apply NEXT;
        try (split; [exact Ho|reflexivity]); intros s q Hq; apply HA; try apply in_or_app; auto.
    + cbn [fill] in E. destruct (fill ps os' ans k m) as [[r1 l1] m2] eqn:EF.
      assert (U1 : upstream_ok (hist l1 h)).
      { destruct r1; injection E as <- <- <-; cbn [app] in HU; [exact HU| |exact HU]. rewrite hist_app in HU. apply hist_ok in HU. exact HU. }
      specialize (NEXT (DVec (vector_data (Z.of_nat c, p))) o k m h r1 l1 m2 EF HF U1 HP').
      destruct r1 as [ys|e|]; injection E as <- <- <-; cbn [app] in *; apply NEXT;
        try (split; [exact Ho|reflexivity]); intros s q Hq; apply HA; try apply in_or_app; auto.
    + pose proof (HL rows (or_introl eq_refl)) as ELn.
      assert (HN' : 24 * Z.of_nat (length rows) < 2 ^ 64) by (rewrite ELn; exact HN).
      destruct (jgd_cases rows (ans k) m HN') as [(-> & EN)|[(Hn & ER & EN)|(Hn & p & m1 & ER & EN & C1 & S1 & N1)]].
      { intros p ER Hn. destruct (fill_log _ _ _ _ _ _ _ _ _ _ _ HN' Hn ER E) as (l' & ->). split; [|apply HA; left; reflexivity].
        cbn [hist fold_left] in HU. apply hist_ok in HU. cbn [upstream_ok] in HU. tauto. }
      * cbn [fill] in E. rewrite EN in E. cbn [length] in ELn. subst n. cbn [own_for] in Ho.
        assert (EO : o = own_none) by (destruct Ho as [(_ & ->)|(Hz & _)]; [reflexivity|lia]). subst o.
        change (jdata_destroy own_none) with (@nil ev) in E. cbn [app length] in E.
        destruct (fill ps os' ans (k + 0) m) as [[r1 l1] m2] eqn:EF.
        assert (U1 : upstream_ok (hist l1 h)).
        { destruct r1; injection E as <- <- <-; rewrite ?app_nil_r in HU; exact HU. }
        specialize (NEXT (DJag (fst own_none)) own_none _ m h r1 l1 m2 EF HF U1 HP').
        destruct r1 as [ys|e|]; injection E as <- <- <-; rewrite ?app_nil_r in *; cbv zeta in NEXT;
          change (jdata_destroy own_none) with (@nil ev) in NEXT; rewrite ?app_nil_r in NEXT; apply NEXT;
          try (split; [left; auto|split; [reflexivity|intros [|i] c q Hi; discriminate]]); exact HA.
      * cbn [fill] in E. rewrite EN in E. injection E as <- <- <-. cbn [app hist fold_left] in *.
        change (jdata_destroy o ++ flat_map jdata_destroy os') with (flat_map jdata_destroy (o :: os')) in *.
        destruct (destroy_all n _ _ HO (UAlloc (24 * Z.of_nat (length rows)) 16 None :: h) B) as (D1 & _ & D3).
        { exact HF. }
        { apply (hist_ok _ _ HU). }
        { cbn [ulive flat_map]. exact HP. }
        split; [exact D1|]. split; [apply same_acc_refl|]. split; [apply changes_refl|]. right. split; [reflexivity|]. split; [exact D3|].
        eexists _, _. left. reflexivity.
      * destruct (fill_log _ _ _ _ _ _ _ _ _ _ _ HN' Hn ER E) as (l' & EL).
        rewrite ELn in *.
        set (o' := (mkJ (Z.of_nat n) p p, mkU p (24 * Z.of_nat n) 0 n 24 false) : own) in *.
        set (b := mkBlock p (24 * Z.of_nat n) 16).
        assert (HU0 : upstream_ok (UAlloc (24 * Z.of_nat n) 16 (Some p) :: h)).
        { rewrite EL in HU. cbn [hist fold_left] in HU. apply hist_ok in HU. exact HU. }
        assert (P0 : 0 < p) by (cbn [upstream_ok] in HU0; tauto).
        assert (OB : own_block o' = [b]) by (unfold own_block, o'; cbn [snd u_ptr u_size]; destruct (Z.eqb_spec p 0); [lia|reflexivity]).
        assert (OJ : own_jag n o') by (right; split; [exact Hn|]; exists p; auto).
        destruct (destroy_one n o (UAlloc (24 * Z.of_nat n) 16 (Some p) :: h) (flat_map own_block os' ++ own_block o' ++ B)) as (D1 & D2 & D3).
        { left. exact Ho. }
        { exact HF. }
        { exact HU0. }
        { cbn [ulive]. fold b. rewrite OB, HP. cbn [app]. rewrite <- app_assoc.
          rewrite (app_assoc (own_block o)), (app_assoc (own_block o)). apply Permutation_middle. }
        set (h1 := hist (jdata_destroy o) (UAlloc (24 * Z.of_nat n) 16 (Some p) :: h)) in *.
        cbn [fill] in E. rewrite EN in E. cbn [fst] in E.
        match type of E with context [fill ps os' ans ?k' m1] => set (k1 := k') in E end.
        destruct (fill ps os' ans k1 m1) as [[r1 l1] m2] eqn:EF.
        remember ([EAlloc (24 * Z.of_nat n) 16 (Some p)] ++ jdata_destroy o) as la eqn:Ela.
        assert (HH : forall l2, hist (la ++ l2) h = hist l2 h1).
        { intros l2. rewrite Ela, !hist_app. reflexivity. }
        assert (U1 : upstream_ok (hist l1 h1)).
        { destruct r1; injection E as <- <- <-; rewrite HH in HU; try exact HU. rewrite hist_app in HU. apply hist_ok in HU. exact HU. }
        assert (A1 : forall s q, In (EAlloc s 16 (Some q)) l1 -> acc m1 q s).
        { intros s q Hq. eapply acc_same; [exact S1|]. apply HA.
          destruct r1; injection E as <- <- <-; apply in_or_app; right; try exact Hq. apply in_or_app. left. exact Hq. }
        assert (FI : filled n m1 (PJag rows) (DJag (fst o'), o')).
        { split; [exact OJ|]. split; [reflexivity|exact N1]. }
        assert (C1' : changes (outside B) m m1).
        { eapply changes_weaken; [exact C1|]. intros y Hy b' Hb. apply (live_new_outside _ _ _ _ HU0 b'); [|exact Hy].
          rewrite HP. apply in_or_app. right. exact Hb. }
        specialize (NEXT (DJag (fst o')) o' k1 m1 h1 r1 l1 m2 EF D1 U1 D3 FI A1).
        assert (G : forall l2 r2, frees_ok (hist l2 h1) /\ same_acc m1 m2 /\ changes (outside B) m1 m2 /\
            ((exists ys, r2 = Ret ys /\ Forall2 (filled n m2) (PJag rows :: ps) ys /\ Permutation (ulive (hist l2 h1)) (flat_map own_block (map snd ys) ++ B)) \/
             (r2 = Throw bad_alloc /\ Permutation (ulive (hist l2 h1)) B /\ failed l2)) ->
            forall l3, l3 = la ++ l2 ->
            frees_ok (hist l3 h) /\ same_acc m m2 /\ changes (outside B) m m2 /\
            ((exists ys, r2 = Ret ys /\ Forall2 (filled n m2) (PJag rows :: ps) ys /\ Permutation (ulive (hist l3 h)) (flat_map own_block (map snd ys) ++ B)) \/
             (r2 = Throw bad_alloc /\ Permutation (ulive (hist l3 h)) B /\ failed l3))).
        { intros l2 r2 (G1 & G2 & G3 & G4) l3 ->. rewrite HH. split; [exact G1|]. split; [eapply same_acc_trans; eauto|].
          split; [eapply changes_weaken; [eapply changes_trans; [exact C1'|exact G3]|]; intros y [Hy|Hy]; exact Hy|].
          destruct G4 as [G4|(G4 & G5 & s & a & G6)]; [left; exact G4|right]. split; [exact G4|]. split; [exact G5|].
          exists s, a. apply in_or_app. right. exact G6. }
        destruct r1 as [ys|e|]; injection E as Er El Em; subst r m'; rewrite <- El; (eapply G; [exact NEXT|reflexivity]).
Qed.

Lemma jdata_fill_changes vecs : forall p m r m', jdata_fill p vecs m = (r, m') -> changes (within p (24 * Z.of_nat (length vecs))) m m'.
Proof.
  induction vecs as [|v vecs IH]; intros p m r m' E; cbn [jdata_fill] in E; [injection E as <- <-; apply changes_refl|].
  destruct (get_bytes m p 24); [|injection E as <- <-; apply changes_refl].
  apply IH in E. eapply changes_weaken; [eapply changes_trans; [apply put_bytes_changes|exact E]|].
  intros x [Hx|Hx]; unfold within in *; cbn [length]; [change (length (view_bytes_of (vector_data v))) with 24%nat in Hx|]; lia.
Qed.

Definition answered (l : list ev) (x : Z) : Prop := exists s p, In (EAlloc s 16 (Some p)) l /\ p <= x < p + s.

Lemma fill_changes ans ps : forall os k m r l m', (forall rows, In (PJag rows) ps -> 24 * Z.of_nat (length rows) < 2 ^ 64) ->
  fill ps os ans k m = (r, l, m') -> changes (answered l) m m'.
Proof.
  induction ps as [|x ps IH]; intros os k m r l m' HN E; [cbn [fill] in E; injection E as <- <- <-; apply changes_refl|].
  destruct os as [|o os]; [destruct x; cbn [fill] in E; injection E as <- <- <-; apply changes_refl|].
  assert (HN' : forall rows, In (PJag rows) ps -> 24 * Z.of_nat (length rows) < 2 ^ 64) by (intros; apply HN; right; assumption).
  assert (W : forall l l' y, answered l y -> (forall e, In e l -> In e l') -> answered l' y)
    by (intros l0 l' y (s & p & H1 & H2) H; exists s, p; auto).
  destruct x as [p|c p|rows]; cbn [fill] in E.
  1,2: destruct (fill ps os ans k m) as [[r1 l1] m2] eqn:EF; apply IH in EF; [|exact HN'];
    destruct r1; injection E as <- <- <-; eapply changes_weaken; try exact EF; intros y Hy;
    (eapply W; [exact Hy|]); intros e0 He; cbn [app]; try apply in_or_app; auto.
  unfold jagged_get_data in E. specialize (HN rows (or_introl eq_refl)).
  destruct (jdata_new_cases (length rows) (ans k) HN) as [(E0 & EN)|[(Hn & ER & EN)|(Hn & p & ER & EN)]]; rewrite EN in E.
  - destruct rows; [|discriminate]. unfold own_none in E. cbn [jdata_fill fst] in E.
    match type of E with context [fill ps os ans ?k' m] => destruct (fill ps os ans k' m) as [[r1 l1] m2] eqn:EF end.
    apply IH in EF; [|exact HN']. cbn [app] in E.
    destruct r1; injection E as <- <- <-; eapply changes_weaken; try exact EF; intros y Hy;
    (eapply W; [exact Hy|]); intros e0 He; apply in_or_app; right; try exact He. apply in_or_app; auto.
  - injection E as <- <- <-. apply changes_refl.
  - cbn [j_host] in E. destruct (jdata_fill p rows m) as [r0 m1] eqn:EJ. apply jdata_fill_changes in EJ.
    assert (C1 : forall l', changes (answered (EAlloc (24 * Z.of_nat (length rows)) 16 (Some p) :: l')) m m1).
    { intros l'. eapply changes_weaken; [exact EJ|]. intros y Hy. exists (24 * Z.of_nat (length rows)), p. split; [left; reflexivity|exact Hy]. }
    destruct r0 as [[]|e|]; [|injection E as <- <- <-; apply C1|injection E as <- <- <-; apply C1].
    match type of E with context [fill ps os ans ?k' m1] => destruct (fill ps os ans k' m1) as [[r1 l1] m2] eqn:EF end.
    apply IH in EF; [|exact HN'].
    destruct r1; injection E as <- <- <-; (eapply changes_weaken; [eapply changes_trans; [apply C1|exact EF]|]);
      intros y [Hy|Hy]; try exact Hy; (eapply W; [exact Hy|]); intros e0 He; right; apply in_or_app; right; try exact He; apply in_or_app; auto.
Qed.

(** ** get_data *)

Definition plen (x : eplace) : option nat :=
  match x with PScalar _ => None | PVec n _ => Some n | PJag rows => Some (length rows) end.

Lemma plen_var x : EdmHostProofs.vlen (place_var x) = plen x.
Proof. destruct x; cbn; rewrite ?repeat_length, ?map_length; reflexivity. Qed.
Lemma has_vec ps : existsb is_vector ps = true -> EdmHostProofs.has_vector (map place_var ps).
Proof.
  intros H. apply existsb_exists in H. destruct H as (x & Hx & V). destruct (plen x) as [n|] eqn:E; [|destruct x; discriminate].
  exists (place_var x), n. split; [apply in_map; exact Hx|]. rewrite plen_var. exact E.
Qed.

Lemma start_size ps n : existsb is_vector ps = true -> (forall x k, In x ps -> plen x = Some k -> k = n) ->
  EdmHost.h_size (map place_var ps) = Ret (Z.of_nat n).
Proof.
  intros HV HS. apply (proj1 (EdmHostProofs.size_thm _ (has_vec ps HV))). intros v k Hv Ek.
  apply in_map_iff in Hv. destruct Hv as (x & <- & Hx). rewrite plen_var in Ek. eapply HS; eauto.
Qed.

Theorem length_thm ps ans m x y i j : In x ps -> In y ps -> plen x = Some i -> plen y = Some j -> i <> j ->
  edm_get_data ps ans m = (Throw length_error, [], m).
Proof.
  intros Hx Hy Ex Ey Hij. assert (HV : existsb is_vector ps = true) by (apply existsb_exists; exists x; split; [exact Hx|destruct x; [discriminate|reflexivity|reflexivity]]).
  unfold edm_get_data. rewrite HV.
  rewrite (proj2 (EdmHostProofs.size_throws _ (has_vec ps HV))); [reflexivity|].
  exists (place_var x), (place_var y), i, j. rewrite !plen_var. repeat split; auto using in_map.
Qed.

Section Get.
  Context (n : nat) (ps : list eplace) (ans : nat -> option Z) (m : cmem) (h : list uevent).
  Context (HV : existsb is_vector ps = true).
  Context (HS : forall x k, In x ps -> plen x = Some k -> k = n).
  Context (Hn : Z.of_nat n < 2 ^ 32).

  Theorem get_thm r log m' : edm_get_data ps ans m = (r, log, m') ->
    upstream_ok (hist log h) -> frees_ok h -> (forall s p, In (EAlloc s 16 (Some p)) log -> acc m p s) ->
    frees_ok (hist log h) /\ changes (answered log) m m' /\
    ((exists ys, r = Ret (mkData (Some (Z.of_nat n)) (Some (mkMem 0 0)) (map (fun y => Some (fst y)) ys) (map snd ys)) /\
        Forall2 (filled n m') ps ys /\ Permutation (ulive (hist log h)) (flat_map own_block (map snd ys) ++ ulive h)) \/
     (r = Throw bad_alloc /\ Permutation (ulive (hist log h)) (ulive h) /\ failed log)).
  Proof.
    intros E HU HF HA. unfold edm_get_data in E. rewrite HV, (start_size ps n HV HS) in E.
    rewrite (Z.mod_small (Z.of_nat n)) in E by lia. unfold data_new in E. rewrite Nat2Z.id in E.
    assert (HN : 24 * Z.of_nat n < 2 ^ 64) by lia.
    assert (HL : forall rows, In (PJag rows) ps -> length rows = n) by (intros rows Hr; eapply HS; [exact Hr|reflexivity]).
    assert (HC : forall rows, In (PJag rows) ps -> 24 * Z.of_nat (length rows) < 2 ^ 64) by (intros rows Hr; rewrite (HL rows Hr); exact HN).
    destruct (alloc_own n ps ans 0) as [[r0 l0] k0] eqn:EA.
    assert (HU0 : upstream_ok (hist l0 h)).
    { destruct r0 as [os|e|]; [|injection E as <- <- <-; exact HU|injection E as <- <- <-; exact HU].
      cbn [d_own] in E. destruct (fill ps os ans k0 m) as [[r1 l1] m1].
      destruct r1; injection E as <- <- <-; rewrite hist_app in HU; apply hist_ok in HU; exact HU. }
    destruct (alloc_own_thm n ps ans HN _ _ _ _ _ _ EA HU0 HF (Permutation_refl _)) as (A1 & [(os & -> & A2 & A3)|(-> & A2 & A3)]).
    - cbn [d_own d_cap d_msize] in E. destruct (fill ps os ans k0 m) as [[r1 l1] m1] eqn:EF.
      assert (EL : log = l0 ++ l1 /\ m1 = m') by (destruct r1; injection E as <- <- <-; auto). destruct EL as [-> ->].
      pose proof (fill_changes _ _ _ _ _ _ _ _ HC EF) as FC. rewrite hist_app in *.
      destruct (fill_thm n ans HN _ _ _ _ _ _ _ _ _ EF A2 HL HU A1 A3) as (F1 & _ & _ & F4).
      { intros s p Hp. apply HA. apply in_or_app. right. exact Hp. }
      split; [exact F1|]. split.
      { eapply changes_weaken; [exact FC|]. intros y (s & p & H1 & H2). exists s, p. split; [apply in_or_app; right; exact H1|exact H2]. }
      destruct F4 as [(ys & -> & F5 & F6)|(-> & F5 & s & a & F6)].
      + injection E as <-. left. exists ys. auto.
      + injection E as <-. right. split; [reflexivity|]. split; [exact F5|]. exists s, a. apply in_or_app. right. exact F6.
    - injection E as <- <- <-. split; [exact A1|]. split; [apply changes_refl|]. right. auto.
  Qed.
End Get.

(** ** The device container *)

Lemma read_rows_thm v m rest : forall i,
  (forall j c q, nth_error rest j = Some (c, q) -> jdv_at v (Z.of_nat (i + j)) m = Ret (Copy.mkV c 0 q)) ->
  read_rows v i (length rest) m = Ret (map (fun x => mkView (fst x) 0 (snd x)) rest).
Proof.
  induction rest as [|[c q] rest IH]; intros i H; cbn [read_rows length map fst snd]; [reflexivity|].
  specialize (H O c q eq_refl) as H0. rewrite Nat.add_0_r in H0. rewrite H0. cbn [bind].
  rewrite IH; [reflexivity|]. intros j c' q' Hj. replace (S i + j)%nat with (i + S j)%nat by lia. apply H. exact Hj.
Qed.

Definition place_view (n : nat) (x : eplace) (e : eview) : Prop :=
  match x with
  | PScalar p => e = EScalar p
  | PVec _ p => e = EVector (mkView (Z.of_nat n) 0 p)
  | PJag rows => exists a b, e = EJagged (Z.of_nat n) a b (map (fun x => mkView (fst x) 0 (snd x)) rows)
  end.

Definition row_ok (r : Z * Z) : Prop := 0 <= fst r < 2 ^ 32 /\ 0 <= snd r < 2 ^ 64.

Lemma seen_thm n m x y : Z.of_nat n < 2 ^ 32 -> (forall k, plen x = Some k -> k = n) ->
  (forall rows, x = PJag rows -> Forall row_ok rows) ->
  filled n m x y -> exists e, seen m (Some (fst y)) = Ret e /\ place_view n x e.
Proof.
  intros Hn HS HR (HO & H). destruct x as [p|c p|rows]; cbn [place_view].
  - rewrite H. cbn [seen]. eauto.
  - rewrite H. cbn [seen]. eexists. split; [reflexivity|]. unfold vector_data, view_fixed.
    cbn [Copy.v_cap Copy.v_sizep Copy.v_ptr fst snd]. rewrite (HS c eq_refl), Z.mod_small by lia. reflexivity.
  - destruct H as (H1 & H2). rewrite H1. cbn [seen]. specialize (HS _ eq_refl). specialize (HR _ eq_refl).
    assert (JS : j_size (fst (snd y)) = Z.of_nat n).
    { destruct HO as [(-> & ->)|(_ & p & _ & ->)]; reflexivity. }
    rewrite JS, Nat2Z.id, <- HS, read_rows_thm; [cbn [bind]; eauto|].
    intros j c q Hj. pose proof (proj1 (Forall_forall _ _) HR _ (nth_error_In _ _ Hj)) as (R1 & R2). cbn [fst snd] in R1, R2.
    rewrite Nat.add_0_l, (H2 j c q Hj R2), Z.mod_small by lia. reflexivity.
Qed.

Lemma seen_all_thm n m ps ys : Z.of_nat n < 2 ^ 32 -> (forall x k, In x ps -> plen x = Some k -> k = n) ->
  (forall rows, In (PJag rows) ps -> Forall row_ok rows) -> Forall2 (filled n m) ps ys ->
  exists es, seen_all m (map (fun y => Some (fst y)) ys) = Ret es /\ Forall2 (place_view n) ps es.
Proof.
  intros Hn HS HR. induction 1 as [|x y ps ys HF HFs IH]; [exists []; split; [reflexivity|constructor]|].
  destruct IH as (es & E & Es); [intros; eapply HS; [right; eassumption|assumption]|intros; apply HR; right; assumption|].
  destruct (seen_thm n m x y Hn) as (e & E1 & E2); auto.
  { intros k. apply HS. left. reflexivity. } { intros rows ->. apply HR. left. reflexivity. }
  exists (e :: es). cbn [map seen_all]. rewrite E1. cbn [bind]. rewrite E. split; [reflexivity|constructor; assumption].
Qed.

Definition kind_ok (v : var) (x : eplace) : Prop :=
  match x with PScalar _ => vk v = KScalar | PVec _ _ => vk v = KVector | PJag _ => vk v = KJagged end.
Definition item_at (i : nat) (v : var) (x : eplace) : dref :=
  match x with
  | PScalar p => RAt p
  | PVec _ p => RAt (p + Z.of_nat i * ve_sz v)
  | PJag rows => RRow (mkView (fst (nth i rows (0, 0))) 0 (snd (nth i rows (0, 0))))
  end.

Lemma items_thm rd n i ps es vars : (i < n)%nat -> Forall2 kind_ok vars ps -> (forall x k, In x ps -> plen x = Some k -> k = n) ->
  Forall2 (place_view n) ps es -> dev_items rd vars es (Z.of_nat i) = Ret (map2 (item_at i) vars ps).
Proof.
  intros Hi HK HS HP. revert vars HK. induction HP as [|x e ps es HE HP IH]; intros vars HK; inversion HK as [|v ? vars' ? K1 K2]; subst; [reflexivity|].
  cbn [dev_items map2]. rewrite IH; [|intros; eapply HS; [right; eassumption|assumption]|exact K2].
  specialize (HS x). destruct x as [p|c p|rows]; cbn [place_view] in HE; cbn [item_at].
  - subst e. reflexivity.
  - subst e. cbn [dev_item]. unfold vec_size. cbn [v_size v_cap v_ptr]. cbn [Z.eqb]. unfold assert.
    destruct (Z.ltb_spec (Z.of_nat i) (Z.of_nat n)); [reflexivity|lia].
  - destruct HE as (a & b & ->). cbn [dev_item]. unfold assert.
    destruct (Z.ltb_spec (Z.of_nat i) (Z.of_nat n)); [|lia]. rewrite Nat2Z.id.
    specialize (HS _ (or_introl eq_refl) eq_refl). rewrite nth_error_map.
    destruct (nth_error rows i) as [[c q]|] eqn:EN; [|apply nth_error_None in EN; lia].
    rewrite (nth_error_nth rows i _ EN). reflexivity.
Qed.

Lemma matches_thm n p ps es : Forall2 (place_view n) ps es -> dev_matches (mkDev (Z.of_nat n) p es) = true.
Proof.
  unfold dev_matches. cbn [ed_cap ed_vars]. induction 1 as [|x e ps es HE HP IH]; [reflexivity|]. cbn [forallb]. rewrite IH.
  destruct x; cbn [place_view] in HE; [subst e|subst e|destruct HE as (a & b & ->)]; cbn [ev_matches v_cap]; rewrite ?Z.eqb_refl; reflexivity.
Qed.

Theorem access_thm rd vars n ps ans m h d log m' :
  existsb is_vector ps = true -> (forall x k, In x ps -> plen x = Some k -> k = n) -> Z.of_nat n < 2 ^ 32 ->
  (forall rows, In (PJag rows) ps -> Forall row_ok rows) -> Forall2 kind_ok vars ps ->
  edm_get_data ps ans m = (Ret d, log, m') ->
  upstream_ok (hist log h) -> frees_ok h -> (forall s p, In (EAlloc s 16 (Some p)) log -> acc m p s) ->
  exists dev, device_of vars d m' = Ret dev /\ device_of vars (edata_convert d) m' = Ret dev /\
    dev_size rd dev = Ret (Z.of_nat n) /\ dev_capacity dev = Ret (Z.of_nat n) /\
    forall i, dev_at rd vars dev (Z.of_nat i) = if (i <? n)%nat then Ret (map2 (item_at i) vars ps) else UB.
Proof.
  intros HV HS Hn HR HK E HU HF HA.
  destruct (get_thm n ps ans m h HV HS Hn _ _ _ E HU HF HA) as (_ & _ & [(ys & [= ->] & F & _)|([=] & _)]).
  destruct (seen_all_thm n m' ps ys Hn HS HR F) as (es & E1 & E2).
  exists (mkDev (Z.of_nat n) 0 es). pose proof (matches_thm n 0 ps es E2) as M.
  assert (DV : device_of vars (mkData (Some (Z.of_nat n)) (Some (mkMem 0 0)) (map (fun y => Some (fst y)) ys) (map snd ys)) m' = Ret (mkDev (Z.of_nat n) 0 es)).
  { unfold device_of. cbn [d_cap d_msize d_views]. rewrite E1. cbn [bind]. unfold dev_make, dev_size_pointer. cbn [m_ptr].
    destruct (existsb is_jagged vars); cbn [bind assert Z.eqb orb]; rewrite M; reflexivity. }
  assert (DS : dev_size rd (mkDev (Z.of_nat n) 0 es) = Ret (Z.of_nat n)) by (unfold dev_size; rewrite M; reflexivity).
  split; [exact DV|]. split; [exact DV|]. split; [exact DS|]. split; [unfold dev_capacity; rewrite M; reflexivity|].
  intros i. unfold dev_at. rewrite DS. cbn [bind]. unfold assert, dev_index. cbn [ed_vars].
  destruct (Nat.ltb_spec i n); destruct (Z.ltb_spec (Z.of_nat i) (Z.of_nat n)); try lia; [|reflexivity].
  apply (items_thm rd n); assumption.
Qed.

Definition descriptions (d : edata) : list block :=
  flat_map (fun v => match v with
                     | Some (DJag j) => if j_size j =? 0 then [] else [mkBlock (j_ptr j) (24 * j_size j) 16]
                     | _ => []
                     end) (d_views d).

Lemma descriptions_thm n m c s ps ys : Forall2 (filled n m) ps ys ->
  descriptions (mkData c s (map (fun y => Some (fst y)) ys) (map snd ys)) = flat_map own_block (map snd ys).
Proof.
  unfold descriptions. cbn [d_views]. induction 1 as [|x y ps ys (HO & H) HF IH]; [reflexivity|]. cbn [map flat_map]. rewrite IH. f_equal.
  destruct x as [p|k p|rows]; cbn [own_for] in HO.
  - rewrite H, HO. reflexivity.
  - rewrite H, HO. reflexivity.
  - destruct H as (-> & _). destruct HO as [(_ & ->)|(Hn & p & Hp & ->)]; [reflexivity|].
    unfold own_block. cbn [fst snd j_size j_ptr u_ptr u_size]. destruct (Z.eqb_spec p 0); [lia|]. destruct (Z.eqb_spec (Z.of_nat n) 0); [lia|]. reflexivity.
Qed.

Theorem memory_thm n ps ans m h r log m' :
  existsb is_vector ps = true -> (forall x k, In x ps -> plen x = Some k -> k = n) -> Z.of_nat n < 2 ^ 32 ->
  edm_get_data ps ans m = (r, log, m') ->
  upstream_ok (hist log h) -> frees_ok h -> (forall s p, In (EAlloc s 16 (Some p)) log -> acc m p s) ->
  frees_ok (hist log h) /\ changes (answered log) m m' /\
  ((exists d, r = Ret d /\ Permutation (ulive (hist log h)) (descriptions d ++ ulive h) /\
      frees_ok (hist (log ++ edata_destroy d) h) /\ Permutation (ulive (hist (log ++ edata_destroy d) h)) (ulive h)) \/
   (r = Throw bad_alloc /\ failed log /\ Permutation (ulive (hist log h)) (ulive h))).
Proof.
  intros HV HS Hn E HU HF HA.
  destruct (get_thm n ps ans m h HV HS Hn _ _ _ E HU HF HA) as (G1 & G2 & G3). split; [exact G1|]. split; [exact G2|].
  destruct G3 as [(ys & -> & F & P)|(-> & P & FA)]; [left|right; auto].
  eexists. split; [reflexivity|]. rewrite (descriptions_thm n m' _ _ ps ys F). split; [exact P|].
  rewrite hist_app. unfold edata_destroy. cbn [d_own].
  destruct (destroy_all n ps (map snd ys)) with (h := hist log h) (B := ulive h) as (D1 & _ & D3); auto.
  clear - F. induction F as [|x y ps ys (HO & _) F IH]; constructor; assumption.
Qed.

(** A schema without vectors: the capacity and the size never get a value. *)
Lemma fill_scalars ans ps : existsb is_vector ps = false -> forall k m, exists ys,
  fill ps (map (fun _ => own_none) ps) ans k m = (Ret ys, [], m).
Proof.
  induction ps as [|x ps IH]; intros H k m; [exists []; reflexivity|]. cbn [existsb] in H. apply orb_false_iff in H. destruct H as (H1 & H2).
  destruct x as [p| |]; try discriminate. destruct (IH H2 k m) as (ys & E). cbn [fill map]. rewrite E. eexists. reflexivity.
Qed.
Theorem scalars_thm ps ans m vars : existsb is_vector ps = false ->
  exists d, edm_get_data ps ans m = (Ret d, [], m) /\ d_cap d = None /\ d_msize d = None /\ device_of vars d m = UB.
Proof.
  intros H. unfold edm_get_data. rewrite H. cbn [d_own data_default]. destruct (fill_scalars ans ps H 0 m) as (ys & ->).
  eexists. split; [reflexivity|]. repeat split.
Qed.
