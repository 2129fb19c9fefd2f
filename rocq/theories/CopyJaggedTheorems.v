(** The copy of a jagged view into another one. *)
From Verif Require Import Base BaseLemmas Copy CopyProofs CopyJaggedProofs.

(** One inner vector of a copy: the source, the target, the size of the source, and the
    bytes of the source's elements. *)
Record jrow := mkRow { r_from : vview; r_to : vview; r_n : Z; r_data : list Z }.

Section Jagged.
  Variable sz : Z.
  Hypothesis sz_pos : 0 < sz.
  Variable k : cptype.

  (** The payload ranges, up to the capacity. *)
  Definition payload (v : vview) (x : Z) : Prop := within (v_ptr v) (v_cap v * sz) x.
  Definition payloads_apart (v w : vview) : Prop := apart (v_ptr v) (v_cap v * sz) (v_ptr w) (v_cap w * sz).

  Definition view_ok (m : cmem) (v : vview) : Prop :=
    0 <= v_cap v < 2 ^ 32 /\ (0 < v_cap v -> v_ptr v <> 0) /\ acc m (v_ptr v) (v_cap v * sz).
  Definition row_ok (m : cmem) (r : jrow) : Prop :=
    view_ok m (r_from r) /\ view_ok m (r_to r) /\ 0 <= r_n r <= v_cap (r_from r) /\ r_n r <= v_cap (r_to r) /\
    get_bytes m (v_ptr (r_from r)) (Z.to_nat (r_n r * sz)) = Some (r_data r) /\
    (0 < v_cap (r_from r) -> 0 < v_cap (r_to r) -> kind_check m k (m_dev m (v_ptr (r_from r))) (m_dev m (v_ptr (r_to r))) = true).
  (** Targets do not overlap each other, nor any source. *)
  Definition rows_apart (rows : list jrow) : Prop :=
    ForallOrdPairs (fun r r' => payloads_apart (r_to r) (r_to r')) rows /\
    (forall r r', In r rows -> In r' rows -> payloads_apart (r_from r) (r_to r')).

  Lemma n_le r m : row_ok m r -> 0 <= r_n r * sz /\ r_n r * sz <= v_cap (r_from r) * sz /\ r_n r * sz <= v_cap (r_to r) * sz.
  Proof.
    intros (_ & _ & H3 & H4 & _). split; [apply Z.mul_nonneg_nonneg; lia|]. split; apply Z.mul_le_mono_nonneg_r; lia.
  Qed.

  Lemma row_ok_step m m' P r : row_ok m r -> changes P m m' -> same_acc m m' -> (forall x, payload (r_from r) x -> ~ P x) -> row_ok m' r.
  Proof.
    intros H C S HP. pose proof (n_le _ _ H) as (N1 & N2 & N3).
    destruct H as ((A1 & A2 & A3) & (B1 & B2 & B3) & H3 & H4 & H5 & H6). pose proof C as (_ & C2 & C3).
    split; [split; [auto|]; split; [auto|apply (acc_same m); auto]|]. split; [split; [auto|]; split; [auto|apply (acc_same m); auto]|].
    split; [auto|]. split; [auto|]. split.
    - rewrite <- H5. apply (changes_get P _ _ _ _ C). intros x Hx. apply HP. unfold payload, within in *. lia.
    - unfold kind_check in *. rewrite C2, C3. auto.
  Qed.

  (** *** Element-wise copy *)
  Lemma copy_views_thm rows : forall m, Forall (row_ok m) rows -> rows_apart rows ->
    exists m', copy_views sz k (map r_n rows) (map r_from rows) (map r_to rows) m = (Ret tt, m') /\ same_acc m m' /\
      changes (fun x => exists r, In r rows /\ payload (r_to r) x) m m' /\
      forall r, In r rows -> get_bytes m' (v_ptr (r_to r)) (Z.to_nat (r_n r * sz)) = Some (r_data r).
  Proof.
    induction rows as [|r rows IH]; intros m F (A1 & A2); cbn [map copy_views].
    - exists m. split; [reflexivity|]. split; [apply same_acc_refl|]. split; [apply changes_refl|]. intros r [].
    - inversion F as [|? ? Hr F']; subst. inversion A1 as [|? ? Ar A1']; subst.
      assert (Ap : rows_apart rows) by (split; [auto|]; intros a b Ha Hb; apply A2; right; auto).
      pose proof (n_le _ _ Hr) as (N1 & N2 & N3). pose proof Hr as ((F1 & F2 & F3) & (T1 & T2 & T3) & R1 & R2 & R3 & R4).
      destruct (r_n r =? 0) eqn:En.
      + destruct (IH m F' Ap) as (m' & G & S & C & D). exists m'. split; [exact G|]. split; [exact S|].
        split; [apply (changes_weaken _ _ _ _ C); intros x (r' & I & P); exists r'; split; [right|]; auto|].
        intros r' [<-|I]; [|apply D; auto]. replace (r_n r) with 0 in * by lia. cbn in R3 |- *. exact R3.
      + match goal with |- context [if ?c then cbind _ _ else _] => replace c with true by lia end.
        destruct (do_copy_ok k (r_n r * sz) (v_ptr (r_from r)) (v_ptr (r_to r)) m) as (m1 & G1 & C1 & S1 & B1).
        * auto.
        * intros _. split; [lia|]. split; [lia|]. apply R4; lia.
        * apply (acc_sub m _ _ _ _ F3); lia.
        * apply (acc_sub m _ _ _ _ T3); lia.
        * intros x Hx. apply (A2 r r (or_introl eq_refl) (or_introl eq_refl) x). lia.
        * rewrite G1. cbn [cbind].
          assert (C1' : changes (payload (r_to r)) m m1) by (apply (changes_weaken _ _ _ _ C1); unfold payload, within; intros x Hx; lia).
          assert (F1' : Forall (row_ok m1) rows).
          { rewrite Forall_forall in F' |- *. intros r' I. apply (row_ok_step m m1 _ r' (F' r' I) C1' S1).
            intros x Hx Hx'. apply (A2 r' r (or_intror I) (or_introl eq_refl) x). split; auto. }
          destruct (IH m1 F1' Ap) as (m2 & G2 & S2 & C2 & D2). exists m2. split; [exact G2|]. split; [apply (same_acc_trans _ m1); auto|].
          split.
          -- apply (changes_weaken _ _ _ _ (changes_trans _ _ _ _ _ C1' C2)). intros x [Hx|(r' & I & Hx)]; [exists r|exists r']; cbn [In]; auto.
          -- intros r' [<-|I]; [|apply D2; auto]. rewrite <- R3. rewrite (changes_get _ _ _ _ _ C2).
             ++ apply get_bytes_ext. intros i Hi. apply B1. lia.
             ++ intros x Hx (r' & I & Hx'). rewrite Forall_forall in Ar. apply (Ar r' I x). unfold payload, within in *. lia.
  Qed.

  (** *** Contiguous copy *)
  Definition contig (l : list vview) : bool := match l with [] => true | v :: l' => contiguous_from sz v l' end.
  Lemma contig_tail v l : contig (v :: l) = true -> contig l = true.
  Proof. destruct l as [|w l]; [reflexivity|]. cbn [contig contiguous_from]. destruct (v_ptr v + v_cap v * sz =? v_ptr w); [auto|discriminate]. Qed.
  Lemma contig_next v w l : contig (v :: w :: l) = true -> v_ptr w = v_ptr v + v_cap v * sz.
  Proof. cbn [contig contiguous_from]. destruct (v_ptr v + v_cap v * sz =? v_ptr w) eqn:E; [lia|discriminate]. Qed.

  Notation sumc l := (fold_right Z.add 0 (map v_cap l)).
  Lemma sumc_nonneg l : Forall (fun v => 0 <= v_cap v) l -> 0 <= sumc l.
  Proof. induction 1; cbn [map fold_right]; lia. Qed.

  (** Every inner vector lies within the total range, ... *)
  Lemma contig_inside l : forall v w, contig (v :: l) = true -> Forall (fun v => 0 <= v_cap v) (v :: l) -> In w (v :: l) ->
    v_ptr v <= v_ptr w /\ v_ptr w + v_cap w * sz <= v_ptr v + sumc (v :: l) * sz.
  Proof.
    induction l as [|u l IH]; intros v w C F I.
    - destruct I as [<-|[]]. cbn [map fold_right]. rewrite Z.add_0_r. lia.
    - inversion F as [|? ? Hv F']; subst. pose proof (contig_next _ _ _ C) as N. pose proof (contig_tail _ _ C) as C'.
      assert (S0 : 0 <= sumc (u :: l)) by (apply sumc_nonneg; auto).
      cbn [map fold_right] in *. rewrite Z.mul_add_distr_r. assert (P1 : 0 <= v_cap v * sz) by (apply Z.mul_nonneg_nonneg; lia).
      assert (P2 : 0 <= (v_cap u + sumc l) * sz) by (apply Z.mul_nonneg_nonneg; lia).
      destruct I as [<-|I]; [lia|]. destruct (IH u w C' F' I) as (I1 & I2). cbn [map fold_right] in I2. lia.
  Qed.
  (** ... and every address of the total range lies in one of them. *)
  Lemma contig_cover l : forall v x, contig (v :: l) = true -> Forall (fun v => 0 <= v_cap v) (v :: l) ->
    within (v_ptr v) (sumc (v :: l) * sz) x -> exists w, In w (v :: l) /\ payload w x.
  Proof.
    induction l as [|u l IH]; intros v x C F H.
    - exists v. split; [left; auto|]. unfold payload. cbn [map fold_right] in H. rewrite Z.add_0_r in H. exact H.
    - inversion F as [|? ? Hv F']; subst. pose proof (contig_next _ _ _ C) as N. pose proof (contig_tail _ _ C) as C'.
      cbn [map fold_right] in *. rewrite Z.mul_add_distr_r in H. unfold within in H.
      destruct (Z.lt_ge_cases x (v_ptr v + v_cap v * sz)) as [D|D].
      + exists v. split; [left; auto|]. unfold payload, within. lia.
      + destruct (IH u x C' F') as (w & I & P); [unfold within; cbn [map fold_right]; lia|]. exists w. split; [right; auto|auto].
  Qed.
  (** Source and target have the same offsets. *)
  Lemma contig_offset rows : forall r0 r, contig (map r_from (r0 :: rows)) = true -> contig (map r_to (r0 :: rows)) = true ->
    caps_match (map r_from (r0 :: rows)) (map r_to (r0 :: rows)) = true -> In r (r0 :: rows) ->
    v_ptr (r_to r) - v_ptr (r_to r0) = v_ptr (r_from r) - v_ptr (r_from r0) /\ v_cap (r_from r) = v_cap (r_to r).
  Proof.
    induction rows as [|r1 rows IH]; intros r0 r C1 C2 M I.
    - destruct I as [<-|[]]. cbn [map caps_match] in M. lia.
    - cbn [map] in C1, C2, M. pose proof (contig_next _ _ _ C1) as N1. pose proof (contig_next _ _ _ C2) as N2.
      cbn [caps_match] in M. apply andb_prop in M. destruct M as (M1 & M2).
      destruct I as [<-|I]; [lia|].
      destruct (IH r1 r (contig_tail _ _ C1) (contig_tail _ _ C2) M2 I) as (E1 & E2). apply Z.eqb_eq in M1. rewrite <- M1 in N2. lia.
  Qed.

  Lemma copy_contiguous_thm rows m : Forall (row_ok m) rows -> rows_apart rows ->
    contig (map r_from rows) = true -> contig (map r_to rows) = true -> caps_match (map r_from rows) (map r_to rows) = true ->
    exists m', copy_views_contiguous sz k (map v_cap (map r_from rows)) (map r_from rows) (map r_to rows) m = (Ret tt, m') /\ same_acc m m' /\
      changes (fun x => exists r, In r rows /\ payload (r_to r) x) m m' /\
      forall r, In r rows -> get_bytes m' (v_ptr (r_to r)) (Z.to_nat (r_n r * sz)) = Some (r_data r).
  Proof.
    unfold copy_views_contiguous. intros F A C1 C2 M.
    (* skip the inner vectors without capacity *)
    induction rows as [|r rows IH]; cbn [map fold_right copy_first].
    - exists m. split; [reflexivity|]. split; [apply same_acc_refl|]. split; [apply changes_refl|]. intros r [].
    - pose proof F as F0. inversion F as [|? ? Hr F']; subst.
      pose proof (n_le _ _ Hr) as (N1 & N2 & N3). pose proof Hr as ((F1 & F2 & F3) & (T1 & T2 & T3) & R1 & R2 & R3 & R4).
      pose proof M as M'. cbn [map caps_match] in M'. apply andb_prop in M'. destruct M' as (M1 & M2). apply Z.eqb_eq in M1.
      destruct (v_cap (r_from r) =? 0) eqn:Ec.
      + destruct IH as (m' & G & S & C & D); auto.
        * destruct A as (A1 & A2). inversion A1; subst. split; [auto|]. intros a b Ha Hb. apply A2; right; auto.
        * apply (contig_tail _ _ C1).
        * apply (contig_tail _ _ C2).
        * exists m'. replace (v_cap (r_from r) + fold_right Z.add 0 (map v_cap (map r_from rows))) with (fold_right Z.add 0 (map v_cap (map r_from rows))) by lia.
          split; [exact G|]. split; [exact S|]. split; [apply (changes_weaken _ _ _ _ C); intros x (r' & I & P); exists r'; split; [right|]; auto|].
          intros r' [<-|I]; [|apply D; auto]. replace (r_n r) with 0 in * by lia. cbn in R3 |- *. exact R3.
      + replace (negb (v_ptr (r_from r) =? 0) && negb (v_ptr (r_to r) =? 0)) with true by lia.
        change (v_cap (r_from r) + fold_right Z.add 0 (map v_cap (map r_from rows))) with (fold_right Z.add 0 (map v_cap (map r_from (r :: rows)))).
        set (T := fold_right Z.add 0 (map v_cap (map r_from (r :: rows)))).
        assert (PF : Forall (fun v => 0 <= v_cap v) (map r_from (r :: rows))).
        { apply Forall_map. apply (Forall_impl _ (P := row_ok m)); [|exact F0]. intros a Ha. destruct Ha as ((Ha & _) & _). lia. }
        assert (PT : Forall (fun v => 0 <= v_cap v) (map r_to (r :: rows))).
        { apply Forall_map. apply (Forall_impl _ (P := row_ok m)); [|exact F0]. intros a Ha. destruct Ha as (_ & (Ha & _) & _). lia. }
        assert (ET : fold_right Z.add 0 (map v_cap (map r_to (r :: rows))) = T).
        { unfold T. f_equal. rewrite !map_map. apply map_ext_in. intros a Ha. symmetry. apply (contig_offset rows r a C1 C2 M Ha). }
        assert (T0 : 0 <= T) by (apply sumc_nonneg; auto).
        assert (CF : forall x, within (v_ptr (r_from r)) (T * sz) x -> exists a, In a (r :: rows) /\ payload (r_from a) x).
        { intros x Hx. destruct (contig_cover (map r_from rows) (r_from r) x C1 PF Hx) as (w & I & P).
          change (r_from r :: map r_from rows) with (map r_from (r :: rows)) in I. apply in_map_iff in I. destruct I as (a & <- & I). exists a. auto. }
        assert (CT : forall x, within (v_ptr (r_to r)) (T * sz) x -> exists a, In a (r :: rows) /\ payload (r_to a) x).
        { intros x Hx. rewrite <- ET in Hx. destruct (contig_cover (map r_to rows) (r_to r) x C2 PT Hx) as (w & I & P).
          change (r_to r :: map r_to rows) with (map r_to (r :: rows)) in I. apply in_map_iff in I. destruct I as (a & <- & I). exists a. auto. }
        rewrite Forall_forall in F0. destruct A as (A1 & A2).
        destruct (do_copy_ok k (T * sz) (v_ptr (r_from r)) (v_ptr (r_to r)) m) as (m1 & G1 & C & S1 & B1).
        * apply Z.mul_nonneg_nonneg; lia.
        * intros _. split; [lia|]. split; [lia|]. apply R4; lia.
        * intros x Hx. destruct (CF x Hx) as (a & I & P). destruct (F0 a I) as ((_ & _ & Q) & _). apply Q. exact P.
        * intros x Hx. destruct (CT x Hx) as (a & I & P). destruct (F0 a I) as (_ & (_ & _ & Q) & _). apply Q. exact P.
        * intros x (Hx & Hx'). destruct (CF x Hx) as (a & I & P). destruct (CT x Hx') as (b & I' & P'). apply (A2 a b I I' x). split; auto.
        * exists m1. split; [exact G1|]. split; [exact S1|]. split; [apply (changes_weaken _ _ _ _ C); exact CT|].
          intros a I. destruct (contig_offset rows r a C1 C2 M I) as (E1 & E2).
          pose proof (n_le _ _ (F0 a I)) as (Na1 & Na2 & Na3). destruct (F0 a I) as (_ & _ & _ & _ & Da & _).
          assert (IT : In (r_to a) (map r_to (r :: rows))) by (apply in_map; auto).
          destruct (contig_inside (map r_to rows) (r_to r) (r_to a) C2 PT IT) as (L1 & L2).
          change (r_to r :: map r_to rows) with (map r_to (r :: rows)) in L2. rewrite ET in L2.
          rewrite <- Da. apply get_bytes_ext. intros i Hi.
          replace (v_ptr (r_to a) + i) with (v_ptr (r_to r) + (v_ptr (r_to a) - v_ptr (r_to r) + i)) by lia.
          rewrite B1 by lia. f_equal. lia.
  Qed.

  (** *** The whole copy *)
  Definition sizes_range (to : list vview) (x : Z) : Prop :=
    match to with [] => False | v :: _ => v_sizep v <> 0 /\ within (v_sizep v) (4 * Z.of_nat (length to)) x end.
  (** The target is either of fixed size, or its sizes stand one after the other, away
      from all payloads. *)
  Definition target_sizes (m : cmem) (rows : list jrow) : Prop :=
    fixed_sizes (map r_to rows) \/
    exists q, sizes_at q (map r_to rows) /\ 0 < q /\ acc m q (4 * Z.of_nat (length rows)) /\
      forall r x, In r rows -> within q (4 * Z.of_nat (length rows)) x -> ~ payload (r_from r) x /\ ~ payload (r_to r) x.

  Theorem copy_jagged_thm rows m : rows <> [] -> Forall (row_ok m) rows -> rows_apart rows ->
    jagged_sizes m (map r_from rows) (map r_n rows) -> target_sizes m rows ->
    exists m', copy_jagged sz k (map r_from rows) (map r_to rows) m = (Ret true, m') /\
      (forall r, In r rows -> get_bytes m' (v_ptr (r_to r)) (Z.to_nat (r_n r * sz)) = Some (r_data r)) /\
      (fixed_sizes (map r_to rows) \/ jagged_sizes m' (map r_to rows) (map r_n rows)) /\
      changes (fun x => (exists r, In r rows /\ payload (r_to r) x) \/ sizes_range (map r_to rows) x) m m'.
  Proof.
    intros Hne F A Hs Ht. unfold copy_jagged. rewrite !map_length. replace (Nat.ltb (length rows) (length rows)) with false by (symmetry; apply Nat.ltb_irrefl).
    destruct rows as [|r0 rows0] eqn:Er; [congruence|]. rewrite <- Er in *.
    assert (Em : exists v l, map r_from rows = v :: l) by (rewrite Er; cbn; eauto). destruct Em as (v0 & l0 & Em).
    assert (Ef : is_contiguous sz (map r_from rows) = Ret (contig (map r_from rows))) by (rewrite Er; reflexivity).
    assert (Et : is_contiguous sz (firstn (length rows) (map r_to rows)) = Ret (contig (map r_to rows))).
    { rewrite firstn_all2 by (rewrite map_length; lia). rewrite Er. reflexivity. }
    rewrite Ef, Et. rewrite (get_sizes_ok _ _ _ Hs). cbn [cbind].
    assert (Fs : Forall2 (fun v n => 0 <= n <= v_cap v /\ v_cap v < 2 ^ 32) (map r_to rows) (map r_n rows)).
    { clear - F. induction F as [|r rows Hr _ IH]; cbn [map]; constructor; auto. destruct Hr as ((? & _) & (? & _) & ? & ? & _). lia. }
    assert (SS : exists m1, set_sizes (map r_n rows) (map r_to rows) m = (Ret tt, m1) /\ same_acc m m1 /\ changes (sizes_range (map r_to rows)) m m1 /\
       Forall (row_ok m1) rows /\
       (fixed_sizes (map r_to rows) \/ exists q, sizes_at q (map r_to rows) /\ 0 < q /\ get_bytes m1 q (4 * length rows) = Some (flat_map le32 (map r_n rows)) /\
          forall r x, In r rows -> within q (4 * Z.of_nat (length rows)) x -> ~ payload (r_to r) x)).
    { destruct Ht as [Ht|(q & Q1 & Q2 & Q3 & Q4)].
      - exists m. rewrite set_sizes_fixed; auto; [|clear - Fs; induction Fs; constructor; auto; lia].
        split; [reflexivity|]. split; [apply same_acc_refl|]. split; [apply changes_refl|]. auto.
      - destruct (set_sizes_resizable (map r_n rows) (map r_to rows) m q Fs Q1 Q2) as (m1 & G & J & S & C & B).
        + rewrite map_length. exact Q3.
        + rewrite map_length in C, B.
          assert (SR : forall x, within q (4 * Z.of_nat (length rows)) x -> sizes_range (map r_to rows) x).
          { intros x Hx. unfold sizes_range. rewrite Er in *. cbn [map] in *. destruct (sizes_at_tail _ _ _ Q1 Q2) as (E & _). rewrite E.
            split; [lia|]. cbn [length] in *. rewrite map_length. exact Hx. }
          exists m1. split; [exact G|]. split; [exact S|]. split; [apply (changes_weaken _ _ _ _ C); exact SR|]. split.
          * rewrite Forall_forall in F |- *. intros r I. apply (row_ok_step m m1 _ r (F r I) C S). intros x Hx Hx'. exact (proj1 (Q4 r x I Hx') Hx).
          * right. exists q. split; [auto|]. split; [auto|]. split; [exact B|]. intros r x I Hx. apply (Q4 r x I Hx). }
    destruct SS as (m1 & G1 & S1 & C1 & F1 & J1). rewrite G1. cbn [cbind].
    assert (CC : exists m2, (if contig (map r_from rows) && contig (map r_to rows) && caps_match (map r_from rows) (map r_to rows)
        then copy_views_contiguous sz k (map v_cap (map r_from rows)) (map r_from rows) (map r_to rows) m1
        else copy_views sz k (map r_n rows) (map r_from rows) (map r_to rows) m1) = (Ret tt, m2) /\ same_acc m1 m2 /\
      changes (fun x => exists r, In r rows /\ payload (r_to r) x) m1 m2 /\
      forall r, In r rows -> get_bytes m2 (v_ptr (r_to r)) (Z.to_nat (r_n r * sz)) = Some (r_data r)).
    { destruct (contig (map r_from rows) && contig (map r_to rows) && caps_match (map r_from rows) (map r_to rows)) eqn:E.
      - apply andb_prop in E. destruct E as (E & E3). apply andb_prop in E. destruct E as (E1 & E2). apply copy_contiguous_thm; auto.
      - apply copy_views_thm; auto. }
    destruct CC as (m2 & G2 & S2 & C2 & D2). rewrite G2. cbn [cbind]. exists m2. split; [rewrite Em; reflexivity|]. split; [exact D2|]. split.
    - destruct J1 as [J1|(q & Q1 & Q2 & Q3 & Q4)]; [left; auto|]. right. split; [exact Fs|]. right. exists q. split; [auto|]. split; [auto|].
      rewrite map_length. rewrite <- Q3. apply (changes_get _ _ _ _ _ C2). intros x Hx (r & I & P). apply (Q4 r x I); [|auto].
      unfold within in *. lia.
    - apply (changes_weaken _ _ _ _ (changes_trans _ _ _ _ _ C1 C2)). tauto.
  Qed.

  (** Outer sizes: an empty source changes nothing; different outer sizes are reported
      without a write. *)
  Theorem copy_jagged_empty to m : copy_jagged sz k [] to m = (Ret false, m).
  Proof. reflexivity. Qed.
  Theorem copy_jagged_sizes from to m s : from <> [] -> length from <> length to -> jagged_sizes m from s ->
    copy_jagged sz k from to m = (Throw length_error, m).
  Proof.
    intros Hf Hl Hs. unfold copy_jagged. destruct (Nat.ltb (length to) (length from)) eqn:E; [reflexivity|].
    destruct from as [|f from]; [congruence|]. apply Nat.ltb_ge in E. cbn [length] in *.
    destruct to as [|t to]; [cbn in E; lia|]. cbn [firstn]. unfold is_contiguous at 1 2. rewrite (get_sizes_ok _ _ _ Hs). cbn [cbind].
    destruct Hs as (F & _). apply Forall2_len in F. rewrite set_sizes_length; [reflexivity|]. cbn [length] in *. lia.
  Qed.

  (** *** memset *)
  Lemma memset_each_thm value l : forall m, Forall (view_ok m) l ->
    exists m', memset_each sz l value m = (Ret tt, m') /\ same_acc m m' /\ changes (fun x => exists v, In v l /\ payload v x) m m' /\
      forall v x, In v l -> payload v x -> m_byte m' x = Some (value mod 256).
  Proof.
    induction l as [|v l IH]; intros m F; cbn [memset_each].
    - exists m. split; [reflexivity|]. split; [apply same_acc_refl|]. split; [apply changes_refl|]. intros v x [].
    - inversion F as [|? ? (V1 & V2 & V3) F']; subst.
      destruct (do_memset_ok (v_cap v * sz) (v_ptr v) value m) as (m1 & G1 & C1 & S1 & B1); [apply Z.mul_nonneg_nonneg; lia| |auto|].
      { intros H. apply V2. destruct (Z.lt_ge_cases 0 (v_cap v)); [auto|]. assert (v_cap v = 0) by lia. rewrite H1 in H. lia. }
      rewrite G1. cbn [cbind].
      assert (F1 : Forall (view_ok m1) l).
      { apply (Forall_impl _ (P := view_ok m)); [|exact F']. intros w (W1 & W2 & W3). split; [auto|]. split; [auto|apply (acc_same m); auto]. }
      destruct (IH m1 F1) as (m2 & G2 & S2 & C2 & B2). exists m2. split; [exact G2|]. split; [apply (same_acc_trans _ m1); auto|]. split.
      + apply (changes_weaken _ _ _ _ (changes_trans _ _ _ _ _ C1 C2)). intros x [Hx|(w & I & P)]; [exists v|exists w]; cbn [In]; auto.
      + assert (Dec : forall ll x, (exists w, In w ll /\ payload w x) \/ ~ (exists w, In w ll /\ payload w x)).
        { clear. induction ll as [|w ll IH]; intros x; [right; intros (w & [] & _)|].
          assert (P : payload w x \/ ~ payload w x) by (unfold payload, within; lia).
          destruct P as [P|P]; [left; exists w; cbn [In]; auto|]. destruct (IH x) as [(u & I & Q)|N]; [left; exists u; cbn [In]; auto|].
          right. intros (u & [<-|I] & Q); [auto|]. apply N. eauto. }
        intros w x I P. destruct (Dec l x) as [(u & I' & P')|N]; [apply (B2 u); auto|].
        destruct I as [<-|I]; [|exfalso; eauto]. destruct C2 as (C2 & _). rewrite C2 by exact N. apply B1. exact P.
  Qed.

  Theorem memset_jagged_thm value l m : l <> [] -> Forall (view_ok m) l ->
    exists m', memset_jagged sz l value m = (Ret tt, m') /\ changes (fun x => exists v, In v l /\ payload v x) m m' /\
      forall v x, In v l -> payload v x -> m_byte m' x = Some (value mod 256).
  Proof.
    intros Hne F. unfold memset_jagged. destruct l as [|v l]; [congruence|]. cbn [is_contiguous]. destruct (contiguous_from sz v l) eqn:E.
    2:{ destruct (memset_each_thm value (v :: l) m F) as (m' & G & _ & R). exists m'. auto. }
    assert (TE : forall l, total_cap l = fold_right Z.add 0 (map v_cap l)) by (induction l0 as [|w l0 IH0]; cbn; [reflexivity|rewrite <- IH0; reflexivity]).
    rewrite TE. change (contig (v :: l) = true) in E.
    (* skip the inner vectors without capacity *)
    revert v E F Hne. induction l as [|w l IH]; intros v E F Hne; inversion F as [|? ? (V1 & V2 & V3) F']; subst.
    - cbn [memset_first map fold_right]. rewrite Z.add_0_r. destruct (negb (v_cap v =? 0) && negb (v_ptr v =? 0)) eqn:Ec.
      + destruct (do_memset_ok (v_cap v * sz) (v_ptr v) value m) as (m1 & G1 & C1 & S1 & B1); [apply Z.mul_nonneg_nonneg; lia|lia|auto|].
        exists m1. split; [exact G1|]. split; [apply (changes_weaken _ _ _ _ C1); intros x Hx; exists v; cbn [In]; auto|].
        intros u x [<-|[]] P. apply B1. exact P.
      + exists m. split; [reflexivity|]. split; [apply changes_refl|]. intros u x [<-|[]] P. exfalso.
        assert (Ez : v_cap v = 0) by lia. unfold payload, within in P. rewrite Ez in P. lia.
    - assert (PF : Forall (fun v => 0 <= v_cap v) (v :: w :: l)).
      { apply (Forall_impl _ (P := view_ok m)); [|exact F]. intros u (U & _). lia. }
      change (memset_first sz (fold_right Z.add 0 (map v_cap (v :: w :: l))) (v :: w :: l) value m)
        with (if negb (v_cap v =? 0) && negb (v_ptr v =? 0) then do_memset (fold_right Z.add 0 (map v_cap (v :: w :: l)) * sz) (v_ptr v) value m
              else memset_first sz (fold_right Z.add 0 (map v_cap (v :: w :: l))) (w :: l) value m).
      destruct (negb (v_cap v =? 0) && negb (v_ptr v =? 0)) eqn:Ec.
      + set (T := fold_right Z.add 0 (map v_cap (v :: w :: l))).
        assert (T0 : 0 <= T) by (apply sumc_nonneg; auto).
        assert (CV : forall x, within (v_ptr v) (T * sz) x -> exists u, In u (v :: w :: l) /\ payload u x) by (intros x Hx; apply contig_cover; auto).
        rewrite Forall_forall in F.
        destruct (do_memset_ok (T * sz) (v_ptr v) value m) as (m1 & G1 & C1 & S1 & B1).
        * apply Z.mul_nonneg_nonneg; lia.
        * intros _. lia.
        * intros x Hx. destruct (CV x Hx) as (u & I & P). destruct (F u I) as (_ & _ & Q). apply Q. exact P.
        * exists m1. split; [exact G1|]. split; [apply (changes_weaken _ _ _ _ C1); exact CV|]. intros u x I P. apply B1.
          destruct (contig_inside (w :: l) v u E PF I) as (L1 & L2). fold T in L2. unfold payload, within in *. lia.
      + destruct (IH w (contig_tail _ _ E) F' ltac:(discriminate)) as (m' & G & C & B).
        assert (Ez : v_cap v = 0) by lia.
        replace (fold_right Z.add 0 (map v_cap (v :: w :: l))) with (fold_right Z.add 0 (map v_cap (w :: l))) by (cbn [map fold_right]; lia).
        exists m'. split; [exact G|]. split; [apply (changes_weaken _ _ _ _ C); intros x (u & I & P); exists u; split; [right; auto|auto]|].
        intros u x [<-|I] P; [|apply (B u); auto]. exfalso. unfold payload, within in P. rewrite Ez in P. lia.
  Qed.
  Theorem memset_jagged_empty value m : memset_jagged sz [] value m = (UB, m).
  Proof. reflexivity. Qed.
End Jagged.

(** *** setup *)
Lemma get_bytes_const n v : forall m a, (forall x, within a (Z.of_nat n) x -> m_byte m x = Some v) -> get_bytes m a n = Some (repeat v n).
Proof.
  induction n as [|n IH]; intros m a H; [reflexivity|]. cbn [get_bytes repeat]. rewrite (H a) by (unfold within; lia).
  rewrite IH; [reflexivity|]. intros x Hx. apply H. unfold within in *. lia.
Qed.
Lemma le32_zeros n : flat_map le32 (repeat 0 n) = repeat 0 (4 * n).
Proof.
  induction n as [|n IH]; [reflexivity|]. cbn [repeat flat_map]. rewrite IH. replace (4 * S n)%nat with (4 + 4 * n)%nat by lia. reflexivity.
Qed.
Theorem setup_jagged_thm l m q : Forall (fun v => 0 <= v_cap v < 2 ^ 32) l -> sizes_at q l -> 0 < q -> acc m q (4 * Z.of_nat (length l)) ->
  exists m', setup_jagged l m = (Ret tt, m') /\ changes (within q (4 * Z.of_nat (length l))) m m' /\ jagged_sizes m' l (repeat 0 (length l)).
Proof.
  intros F H Hq Ha. destruct l as [|v l].
  - exists m. split; [reflexivity|]. split; [apply changes_refl|]. split; [constructor|]. left. split; [constructor|reflexivity].
  - unfold setup_jagged. destruct (sizes_at_tail _ _ _ H Hq) as (E & _). rewrite E. replace (q =? 0) with false by lia.
    destruct (do_memset_ok (4 * Z.of_nat (length (v :: l))) q 0 m) as (m' & G & C & _ & B); [lia|lia|auto|]. exists m'.
    split; [exact G|]. split; [exact C|]. split.
    + clear - F. induction F; cbn [length repeat]; constructor; auto. lia.
    + right. exists q. split; [auto|]. split; [auto|]. rewrite le32_zeros. apply get_bytes_const. intros x Hx. rewrite (B x); [reflexivity|].
      unfold within in *. lia.
Qed.
Theorem setup_jagged_fixed l m : fixed_sizes l -> setup_jagged l m = (Ret tt, m).
Proof. intros F. destruct F as [|v l E _]; [reflexivity|]. unfold setup_jagged. rewrite E. reflexivity. Qed.

(** *** Inconsistent targets *)
Lemma check_sizes_false s : forall l, length s = length l -> (exists w, In w l /\ v_sizep w <> 0) -> exists e, check_sizes s l false = Throw e.
Proof.
  induction s as [|n s IH]; intros [|v l] L (w & I & Hw); cbn [length] in L; try lia; [destruct I|]. cbn [check_sizes].
  destruct (v_cap v <? n); [eexists; reflexivity|]. destruct (v_sizep v =? 0) eqn:E; [|eexists; reflexivity].
  apply IH; [lia|]. destruct I as [<-|I]; [lia|]. eauto.
Qed.
Theorem set_sizes_inconsistent s l m i j v w : length s = length l -> nth_error l i = Some v -> nth_error l j = Some w -> (i < j)%nat ->
  v_sizep v = 0 -> v_sizep w <> 0 -> exists e, set_sizes s l m = (Throw e, m).
Proof.
  intros L Hi Hj Hij Hv Hw.
  assert (G : forall s l i j, length s = length l -> nth_error l i = Some v -> nth_error l j = Some w -> (i < j)%nat -> forall b, exists e, check_sizes s l b = Throw e).
  { clear - Hv Hw. induction s as [|n s IH]; intros [|u l] i j L Hi Hj Hij b; cbn [length] in L; try lia; [destruct i; discriminate|].
    cbn [check_sizes]. destruct (v_cap u <? n); [eexists; reflexivity|]. destruct j as [|j]; [lia|]. cbn in Hj. destruct i as [|i]; cbn in Hi.
    - injection Hi as ->. rewrite Hv. cbn [Z.eqb]. apply check_sizes_false; [lia|]. exists w. split; [exact (nth_error_In _ _ Hj)|auto].
    - destruct (v_sizep u =? 0); [apply (IH l i j); auto; lia|]. destruct b; [apply (IH l i j); auto; lia|]. eexists; reflexivity. }
  destruct (G s l i j L Hi Hj Hij true) as (e & E). exists e. unfold set_sizes. destruct l as [|u l]; [destruct i; discriminate|].
  destruct s as [|n s]; [discriminate|]. replace (Nat.eqb (length (n :: s)) (length (u :: l))) with true by (symmetry; apply Nat.eqb_eq; auto).
  cbn [negb]. rewrite E. reflexivity.
Qed.

(** The choice between the paths. *)
Lemma is_contiguous_spec sz l : l <> [] ->
  exists c, is_contiguous sz l = Ret c /\
    (c = true <-> forall i v w, nth_error l i = Some v -> nth_error l (S i) = Some w -> v_ptr v + v_cap v * sz = v_ptr w).
Proof.
  destruct l as [|v l]; [congruence|]. intros _. exists (contiguous_from sz v l). split; [reflexivity|].
  revert v. induction l as [|x l IH]; intros v; cbn [contiguous_from].
  - split; [|reflexivity]. intros _ [|i] a b _ Hb; cbn [nth_error] in Hb; [discriminate|destruct i; discriminate].
  - destruct (Z.eqb_spec (v_ptr v + v_cap v * sz) (v_ptr x)) as [E|E].
    + rewrite IH. split; intros H.
      * intros [|i] a b Ha Hb; cbn [nth_error] in *; [injection Ha as <-; injection Hb as <-; exact E|exact (H i a b Ha Hb)].
      * intros i a b Ha Hb. exact (H (S i) a b Ha Hb).
    + split; [discriminate|]. intros H. exfalso. apply E. exact (H 0%nat v x eq_refl eq_refl).
Qed.
