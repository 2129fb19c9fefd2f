(** The constructors of edm::buffer: layout, and release of the memory. *)
From Verif Require Import Base BaseLemmas IntMath IntMathProofs Align AlignProofs Placement PlacementProofs JaggedBufferProofs
  EdmBuffer EdmBufferProofs EdmBufferTheorems.

(** The sub-arrays of the main allocation. *)
Definition edm_sects (vars : list var) (caps : list Z) (resizable : bool) : list sect :=
  (if resizable then if existsb is_jagged vars then map (size_sect caps) vars else [mkSect 4 4 1] else []) ++
  map (layout_sect caps) vars ++ map (payload_sect caps) vars.

(** The host layout: absent, or a copy with the same offsets in host memory. *)
Definition host_ok (host : bool) (e : ebuf) (hw hw' : world) : Prop :=
  match eb_host_mem e with
  | None => host = false /\ hw' = hw /\ eb_host_layout e = eb_layout e /\
      forall i n l h inner, nth_error (eb_views e) i = Some (EJagged n l h inner) -> h = l
  | Some hb => host = true /\ 0 < bptr hb /\ ulive (ulog hw') = hb :: ulive (ulog hw) /\ (frees_ok (ulog hw) -> frees_ok (ulog hw')) /\
      m_len (eb_host_layout e) = m_len (eb_layout e) /\
      forall i n l h inner, nth_error (eb_views e) i = Some (EJagged n l h inner) -> 0 < n ->
        h - m_ptr (eb_host_layout e) = l - m_ptr (eb_layout e) /\ 0 < h /\ inside (mkBlock h (24 * n) 8) hb
  end.

Lemma need_app ts us : need (ts ++ us) = need ts + need us.
Proof. induction ts as [|t ts IH]; cbn [app need fold_right]; [reflexivity|]. fold (need (ts ++ us)). fold (need ts). lia. Qed.
Lemma placement_align_incl ts us : incl ts us -> placement_align ts <= placement_align us.
Proof.
  induction ts as [|t ts IH]; intros H; [apply placement_align_nonneg|]. cbn [placement_align fold_right].
  change (fold_right _ 0 ts) with (placement_align ts). apply Z.max_lub.
  - apply placement_align_ge. apply H. left. reflexivity.
  - apply IH. intros x Hx. apply H. right. exact Hx.
Qed.
Lemma need_all_mid ts us vs : Forall sect_ok (ts ++ us ++ vs) -> need_all us <= need_all (ts ++ us ++ vs).
Proof.
  intros HF. apply Forall_app in HF. destruct HF as (F1 & HF). apply Forall_app in HF. destruct HF as (F2 & F3).
  unfold need_all. rewrite !need_app, !app_length.
  pose proof (need_nonneg ts F1). pose proof (need_nonneg vs F3).
  pose proof (placement_align_incl us (ts ++ us ++ vs) ltac:(intros x Hx; rewrite !in_app_iff; auto)) as Ha.
  pose proof (placement_align_nonneg us) as Hn.
  assert (Z.of_nat (length us) * placement_align us <= Z.of_nat (length ts + (length us + length vs)) * placement_align (ts ++ us ++ vs)).
  { apply Z.mul_le_mono_nonneg; lia. }
  lia.
Qed.

Lemma map_const_In {A} (c : Z) (l : list A) x : In x (map (fun _ => c) l) -> x = c.
Proof. intros H. apply in_map_iff in H. destruct H as (y & <- & _). reflexivity. Qed.

Section Final.
  Variables (vars : list var) (caps : list Z).
  Hypothesis Hne : vars <> [].
  Hypothesis HV : vars_ok vars.
  Hypothesis HC : Forall (fun c => 0 <= c < 2 ^ 32) caps.
  Hypothesis HN : Z.of_nat (length caps) < 2 ^ 32.
  Hypothesis HT : total caps < 2 ^ 32.
  Let LS := map (layout_sect caps) vars.
  Let PS := map (payload_sect caps) vars.
  Hypothesis HL : need_all LS < 2 ^ 64.

  Lemma edm_finish_ok rs host p sz msize a b sizes ls ps w hw r w' hw' :
    0 < p -> sz < 2 ^ 32 -> p <= a <= b -> placed a b LS ls -> placed b (p + sz) PS ps -> length sizes = length vars ->
    size_facts vars caps (mkBlock p sz 16) a sizes rs msize ->
    edm_finish vars caps host (mkBlock p sz 16) msize sizes ls ps w hw = (r, w', hw') -> upstream_ok (ulog hw') ->
    (exists e, r = Ret e /\ w' = w /\ eb_mem e = mkBlock p sz 16 /\ eb_cap e = Z.of_nat (length caps) /\
       edm_ok vars caps rs e /\ host_ok host e hw hw') \/
    (r = Throw bad_alloc /\ w' = free_bytes w (mkBlock p sz 16) /\ ulive (ulog hw') = ulive (ulog hw) /\ (frees_ok (ulog hw) -> frees_ok (ulog hw'))).
  Proof.
    intros Hp Hsz Hab HPL HPP Hlen HS E HU. unfold edm_finish in E. fold LS PS in E.
    assert (Hls : Forall sect_ok LS) by (apply LS_ok).
    assert (HLne : LS <> []) by (unfold LS; destruct vars; [congruence|discriminate]).
    assert (Ecap : wrap32 (Z.of_nat (length caps)) = Z.of_nat (length caps)) by (apply wrap32_small; lia).
    destruct host.
    - destruct (placement hw LS) as [rh hw1] eqn:EP.
      assert (hw1 = hw') by (destruct rh as [[hb hl]| |]; congruence). subst hw1.
      destruct (placement_ok hw LS rh hw' Hls HLne HL EP HU) as [(q & hs & -> & El & Hq & HPH)|(-> & El)].
      2:{ right. injection E as <- <-. split; [reflexivity|]. split; [reflexivity|]. rewrite El. cbn [ulive frees_ok]. auto. }
      left. injection E as <- <-. eexists. split; [reflexivity|]. split; [reflexivity|]. split; [reflexivity|]. split; [exact Ecap|].
      assert (Hhs : length hs = length vars) by (rewrite (placed_length _ _ _ _ HPH); unfold LS; apply map_length).
      split.
      + eapply edm_ok_core with (sizes := sizes) (ls := ls) (ps := ps) (hs := hs) (mem := mkBlock p sz 16) (a := a) (b := b) (msize := msize); auto; try reflexivity.
      + unfold host_ok. cbn [eb_host_mem eb_host_layout eb_layout eb_views bptr]. split; [reflexivity|]. split; [auto|]. split; [rewrite El; reflexivity|]. split; [rewrite El; cbn [frees_ok]; auto|].
        pose proof (host_layout_core vars caps HN (mkBlock p sz 16) a b sizes ls ps hs) as HH.
        destruct (HH ltac:(auto) ltac:(auto) HPL ltac:(auto) ltac:(auto) ltac:(auto) q _ Hq HPH) as (H1 & H2).
        split; [exact H1|]. intros i n l h inner Ev Hn. destruct (H2 i n l h inner Ev Hn) as (A & B & C).
        split; [exact A|]. split; [exact B|]. intros x Hx. specialize (C x Hx). unfold in_block in *. cbn [bptr bsize] in *. fold LS. lia.
    - left. injection E as <- <- <-. eexists. split; [reflexivity|]. split; [reflexivity|]. split; [reflexivity|]. split; [exact Ecap|]. split.
      + eapply edm_ok_core with (sizes := sizes) (ls := ls) (ps := ps) (hs := map (fun _ => 0) vars) (mem := mkBlock p sz 16) (a := a) (b := b) (msize := msize); auto; try reflexivity.
        apply map_length.
      + unfold host_ok. cbn [eb_host_mem eb_host_layout eb_layout eb_views]. split; [reflexivity|]. split; [reflexivity|]. split; [reflexivity|].
        intros i n l h inner Ev.
        destruct (view_nth vars caps (mkBlock p sz 16) a b sizes ls ps (map (fun _ => 0) vars)) with (i := i) (e := EJagged n l h inner)
          as (v & s & l0 & h0 & p0 & Evi & Es & E1 & E2 & E3 & Em); auto; try (apply map_length).
        apply nth_error_In in E2. apply map_const_In in E2. subst h0. unfold make_view in Em.
        destruct (vk v); try discriminate. injection Em as _ <- -> _. reflexivity.
  Qed.
End Final.

Lemma combine_sizes (caps : list Z) (vars : list var) lo hi sizes :
  Forall sect_ok (map (size_sect caps) vars) -> placed lo hi (map (size_sect caps) vars) sizes ->
  map (fun x => if is_jagged (fst x) then snd x else 0) (combine vars sizes) = sizes.
Proof.
  revert lo sizes. induction vars as [|v vars IH]; intros lo [|s sizes] HF HP; cbn [map placed] in *; try tauto; auto.
  inversion HF as [|? ? _ HF']; subst. cbn [combine map fst snd].
  assert (HJ : is_jagged v = false -> s_n (size_sect caps v) = 0) by (unfold is_jagged, size_sect, layout_size; destruct (vk v); cbn; congruence).
  destruct (s_n (size_sect caps v) =? 0) eqn:E0.
  - destruct HP as (-> & HP). rewrite (IH _ _ HF' HP). destruct (is_jagged v); reflexivity.
  - destruct HP as (_ & _ & HP). rewrite (IH _ _ HF' HP).
    destruct (is_jagged v); [reflexivity|]. apply Z.eqb_neq in E0. exfalso. apply E0. auto.
Qed.

(** Result of a constructor. *)
Definition edm_result (vars : list var) (caps : list Z) (rs host : bool) (w hw : world) (r : outcome ebuf) (w' hw' : world) : Prop :=
  (exists e p, r = Ret e /\ 0 < p /\ eb_mem e = mkBlock p (need_all (edm_sects vars caps rs)) 16 /\
     ulog w' = UAlloc (need_all (edm_sects vars caps rs)) 16 (Some p) :: ulog w /\
     eb_cap e = Z.of_nat (length caps) /\ edm_ok vars caps rs e /\ host_ok host e hw hw') \/
  (r = Throw bad_alloc /\ ulive (ulog w') = ulive (ulog w) /\ ulive (ulog hw') = ulive (ulog hw) /\
     (frees_ok (ulog w) -> frees_ok (ulog w')) /\ (frees_ok (ulog hw) -> frees_ok (ulog hw'))).

Section Constructors.
  Variables (vars : list var) (caps : list Z) (rs host : bool).
  Hypothesis Hne : vars <> [].
  Hypothesis HV : vars_ok vars.
  Hypothesis HC : Forall (fun c => 0 <= c < 2 ^ 32) caps.
  Hypothesis HN : Z.of_nat (length caps) < 2 ^ 32.
  Hypothesis HT : total caps < 2 ^ 32.
  Hypothesis Hneed : need_all (edm_sects vars caps rs) < 2 ^ 32.
  Let LS := map (layout_sect caps) vars.
  Let PS := map (payload_sect caps) vars.
  Let SS := map (size_sect caps) vars.

  Lemma sects_ok : Forall sect_ok (edm_sects vars caps rs).
  Proof.
    unfold edm_sects. apply Forall_app. split; [|apply Forall_app; split; [apply LS_ok|apply PS_ok; auto]].
    destruct rs; [|constructor]. destruct (existsb is_jagged vars); [apply SS_ok|].
    constructor; [|constructor]. unfold sect_ok. cbn [s_esz s_al s_n]. split; [lia|]. split; [exists 2; split; [lia|reflexivity]|lia].
  Qed.
  Lemma sects_ne : edm_sects vars caps rs <> [].
  Proof.
    unfold edm_sects. intros H. apply app_eq_nil in H. destruct H as (_ & H). apply app_eq_nil in H. destruct H as (H & _).
    destruct vars; [congruence|discriminate H].
  Qed.
  Lemma need_LS : need_all LS < 2 ^ 64.
  Proof.
    pose proof sects_ok as HF. unfold edm_sects in *. fold LS PS in HF, Hneed. pose proof (need_all_mid _ _ _ HF). lia.
  Qed.

  (** The main allocation followed by [edm_finish]. *)
  Definition main_then (w hw : world) (k : block -> list Z -> world -> outcome ebuf * world * world) :=
    match placement w (edm_sects vars caps rs) with
    | (Ret (mem, ps), w') => k mem ps w'
    | (Throw e, w') => (Throw e, w', hw)
    | (UB, w') => (UB, w', hw)
    end.

  Lemma main_then_ok w hw k r w' hw' :
    main_then w hw k = (r, w', hw') -> upstream_ok (ulog w') -> upstream_ok (ulog hw') ->
    (forall mem ps w1 r w' hw', k mem ps w1 = (r, w', hw') -> exists l, ulog w' = l ++ ulog w1) ->
    (forall p ps w1, 0 < p -> ulog w1 = UAlloc (need_all (edm_sects vars caps rs)) 16 (Some p) :: ulog w ->
       placed p (p + need_all (edm_sects vars caps rs)) (edm_sects vars caps rs) ps ->
       k (mkBlock p (need_all (edm_sects vars caps rs)) 16) ps w1 = (r, w', hw') ->
       (exists e, r = Ret e /\ w' = w1 /\ eb_mem e = mkBlock p (need_all (edm_sects vars caps rs)) 16 /\ eb_cap e = Z.of_nat (length caps) /\
          edm_ok vars caps rs e /\ host_ok host e hw hw') \/
       (r = Throw bad_alloc /\ w' = free_bytes w1 (mkBlock p (need_all (edm_sects vars caps rs)) 16) /\
          ulive (ulog hw') = ulive (ulog hw) /\ (frees_ok (ulog hw) -> frees_ok (ulog hw')))) ->
    edm_result vars caps rs host w hw r w' hw'.
  Proof.
    intros E HU HU' Hk HR. unfold main_then in E. destruct (placement w (edm_sects vars caps rs)) as [r1 w1] eqn:EP.
    assert (HU1 : upstream_ok (ulog w1)).
    { destruct r1 as [[mem ps]| |]; [|congruence|congruence].
      destruct (Hk _ _ _ _ _ _ E) as (l & El). rewrite El in HU. clear -HU. induction l; auto. apply IHl. eapply upstream_ok_tail; eauto. }
    destruct (placement_ok _ _ _ _ sects_ok sects_ne ltac:(lia) EP HU1) as [(p & ps & -> & El & Hp & HP)|(-> & El)].
    2:{ right. injection E as <- <- <-. rewrite El. cbn [ulive frees_ok]. auto. }
    destruct (HR p ps w1 Hp El HP E) as [(e & -> & -> & Em & Ec & He & Hh)|(-> & -> & H1 & H2)].
    - left. exists e, p. auto 10.
    - right. split; [reflexivity|]. rewrite free_opt_log by (cbn [bptr]; auto). rewrite El. cbn [bptr bsize balign ulive frees_ok].
      rewrite ulive_remove_head. split; [reflexivity|]. split; [auto|]. split; [|auto]. intros H. split; [left; reflexivity|auto].
  Qed.

  Lemma finish_grow mem msize sizes ls ps w1 hw r w' hw' :
    edm_finish vars caps host mem msize sizes ls ps w1 hw = (r, w', hw') -> exists l, ulog w' = l ++ ulog w1.
  Proof.
    unfold edm_finish. destruct host.
    - destruct (placement hw _) as [[[hb hl]| |] hw1]; intros E; injection E as _ <- _; try (exists []; reflexivity).
      unfold free_bytes. destruct (bptr mem =? 0); [exists []; reflexivity|eexists [_]; reflexivity].
    - intros E. injection E as _ <- _. exists []. reflexivity.
  Qed.

  Lemma edm_buffer_result w hw r w' hw' : edm_buffer vars caps rs host w hw = (r, w', hw') ->
    upstream_ok (ulog w') -> upstream_ok (ulog hw') -> edm_result vars caps rs host w hw r w' hw'.
  Proof.
    intros E HU HU'. pose proof need_LS as HLS. unfold edm_buffer in E.
    assert (Hrs : rs = true \/ rs = false) by (destruct rs; auto).
    assert (EL : length LS = length vars) by apply map_length. assert (ES : length SS = length vars) by apply map_length.
    destruct Hrs as [Ers|Ers]; rewrite Ers in E; [unfold edm_resizable in E; destruct (existsb is_jagged vars) eqn:EJ|unfold edm_fixed in E].
    - eapply main_then_ok with (k := fun mem l w' => edm_finish vars caps host mem
        (mkMem (wrap32 (fold_right (fun v n => layout_size caps v + n) 0 vars * 4)) (find_first (firstn (length vars) l)))
        (map (fun x => if is_jagged (fst x) then snd x else 0) (combine vars (firstn (length vars) l)))
        (firstn (length vars) (skipn (length vars) l)) (skipn (length vars) (skipn (length vars) l)) w' hw); eauto.
      + unfold main_then, edm_sects. rewrite Ers, EJ. exact E.
      + intros. eapply finish_grow; eauto.
      + intros p l w1 Hp Hl HP Ek. revert HP. set (sz := need_all _) in *. unfold edm_sects. rewrite Ers, EJ. intros HP. fold LS PS in HP. fold SS in HP.
        destruct (placed_app _ _ _ _ _ (SS_ok vars caps) HP) as (a & Ha & P1 & P2).
        destruct (placed_app _ _ _ _ _ (LS_ok vars caps) P2) as (b & Hb & P3 & P4).
        rewrite map_length in P1, P2, P3, P4. rewrite map_length in P3, P4.
        rewrite (combine_sizes caps vars _ _ _ (SS_ok vars caps) P1) in Ek.
        eapply edm_finish_ok; eauto.
        * rewrite (placed_length _ _ _ _ P1). apply map_length.
        * right. left. split; [auto|]. split; [auto|]. split; [exact P1|reflexivity].
    - eapply main_then_ok with (k := fun mem l w' => match l with size :: l => 
         edm_finish vars caps host mem (mkMem 4 size) (map (fun _ => size) vars) (firstn (length vars) l) (skipn (length vars) l) w' hw | [] => (UB, w', hw) end); eauto.
      + unfold main_then, edm_sects. rewrite Ers, EJ. cbn [app]. exact E.
      + intros mem [|] ? ? ? ? Ek; [injection Ek as _ <- _; exists []; reflexivity|]. eapply finish_grow; eauto.
      + intros p l w1 Hp Hl HP Ek. revert HP. set (sz := need_all _) in *. unfold edm_sects. rewrite Ers, EJ. intros HP. fold LS PS in HP.
        destruct l as [|size l]; [destruct HP|]. cbn [app placed] in HP. cbn [s_n s_esz s_al] in HP.
        destruct HP as (Q1 & Q2 & HP).
        destruct (placed_app _ _ _ _ _ (LS_ok vars caps) HP) as (b & Hb & P3 & P4).
        rewrite map_length in P3, P4.
        eapply edm_finish_ok with (a := size + 1 * 4) (b := b); eauto; try lia.
        * apply map_length.
        * right. right. split; [auto|]. split; [auto|]. exists size. split; [intros x; apply map_const_In|]. split; [reflexivity|].
          cbn [bptr]. split; [apply Q2|]. lia.
    - eapply main_then_ok with (k := fun mem ps w' => edm_finish vars caps host mem (mkMem 0 0) (map (fun _ => 0) vars)
         (firstn (length vars) ps) (skipn (length vars) ps) w' hw); eauto.
      + unfold main_then, edm_sects. rewrite Ers. cbn [app]. exact E.
      + intros. eapply finish_grow; eauto.
      + intros p l w1 Hp Hl HP Ek. revert HP. set (sz := need_all _) in *. unfold edm_sects. rewrite Ers. cbn [app]. intros HP. fold LS PS in HP.
        destruct (placed_app _ _ _ _ _ (LS_ok vars caps) HP) as (b & Hb & P3 & P4). rewrite map_length in P3, P4.
        eapply edm_finish_ok with (a := p) (b := b); eauto; try lia.
        * apply map_length.
        * left. split; [auto|]. split; [reflexivity|]. intros x; apply map_const_In.
  Qed.
End Constructors.

(** Release of the memory. *)
Lemma edm_buffer_released vars caps rs host w hw r w' hw' : vars <> [] -> vars_ok vars ->
  Forall (fun c => 0 <= c < 2 ^ 32) caps -> Z.of_nat (length caps) < 2 ^ 32 -> total caps < 2 ^ 32 ->
  need_all (edm_sects vars caps rs) < 2 ^ 32 ->
  edm_buffer vars caps rs host w hw = (r, w', hw') -> upstream_ok (ulog w') -> upstream_ok (ulog hw') ->
  frees_ok (ulog w) -> frees_ok (ulog hw) ->
  (r = Throw bad_alloc /\ ulive (ulog w') = ulive (ulog w) /\ ulive (ulog hw') = ulive (ulog hw) /\ frees_ok (ulog w') /\ frees_ok (ulog hw')) \/
  exists e, r = Ret e /\ forall w2 hw2, edm_destroy e w' hw' = (w2, hw2) ->
    ulive (ulog w2) = ulive (ulog w) /\ ulive (ulog hw2) = ulive (ulog hw) /\ frees_ok (ulog w2) /\ frees_ok (ulog hw2).
Proof.
  intros Hne HV HC HN HT Hneed E HU HU' HF HF'.
  destruct (edm_buffer_result vars caps rs host Hne HV HC HN HT Hneed w hw r w' hw' E HU HU')
    as [(e & p & -> & Hp & Em & El & _ & _ & Hh)|(-> & H1 & H2 & H3 & H4)]; [right|left; auto 10].
  exists e. split; [reflexivity|]. intros w2 hw2 Ed. unfold edm_destroy in Ed. injection Ed as <- <-.
  rewrite Em, free_opt_log by (cbn [bptr]; auto). rewrite El. cbn [bptr bsize balign ulive frees_ok]. rewrite ulive_remove_head.
  split; [reflexivity|]. unfold host_ok in Hh. unfold free_opt. destruct (eb_host_mem e) as [hb|].
  - destruct Hh as (_ & Hb & Hl & HF2 & _). rewrite free_opt_log by auto. destruct hb as [q s al]. cbn [bptr bsize balign ulive frees_ok] in *.
    rewrite Hl, ulive_remove_head. split; [reflexivity|]. split; [split; [left; reflexivity|auto]|]. split; [left; reflexivity|auto].
  - destruct Hh as (_ & -> & _). split; [reflexivity|]. split; [split; [left; reflexivity|auto]|auto].
Qed.

Lemma edm_buffer_layout vars caps rs host w hw r w' hw' : vars <> [] -> vars_ok vars ->
  Forall (fun c => 0 <= c < 2 ^ 32) caps -> Z.of_nat (length caps) < 2 ^ 32 -> total caps < 2 ^ 32 ->
  need_all (edm_sects vars caps rs) < 2 ^ 32 ->
  edm_buffer vars caps rs host w hw = (r, w', hw') -> upstream_ok (ulog w') -> upstream_ok (ulog hw') ->
  r = Throw bad_alloc \/
  exists e, r = Ret e /\ In (eb_mem e) (ulive (ulog w')) /\ eb_cap e = Z.of_nat (length caps) /\ edm_ok vars caps rs e.
Proof.
  intros Hne HV HC HN HT Hneed E HU HU'.
  destruct (edm_buffer_result vars caps rs host Hne HV HC HN HT Hneed w hw r w' hw' E HU HU')
    as [(e & p & -> & Hp & Em & El & Ec & He & Hh)|(-> & _)]; [right|auto].
  exists e. split; [reflexivity|]. rewrite El, Em. split; [left; reflexivity|auto].
Qed.

Lemma edm_buffer_host vars caps rs host w hw e w' hw' : vars <> [] -> vars_ok vars ->
  Forall (fun c => 0 <= c < 2 ^ 32) caps -> Z.of_nat (length caps) < 2 ^ 32 -> total caps < 2 ^ 32 ->
  need_all (edm_sects vars caps rs) < 2 ^ 32 ->
  edm_buffer vars caps rs host w hw = (Ret e, w', hw') -> upstream_ok (ulog w') -> upstream_ok (ulog hw') ->
  (host = false -> hw' = hw /\ eb_host_mem e = None /\ eb_host_layout e = eb_layout e /\
     forall i n l h inner, nth_error (eb_views e) i = Some (EJagged n l h inner) -> h = l) /\
  (host = true -> exists hb, eb_host_mem e = Some hb /\ In hb (ulive (ulog hw')) /\
     m_len (eb_host_layout e) = m_len (eb_layout e) /\
     forall i n l h inner, nth_error (eb_views e) i = Some (EJagged n l h inner) -> 0 < n ->
       h - m_ptr (eb_host_layout e) = l - m_ptr (eb_layout e) /\ 0 < h /\ inside (mkBlock h (24 * n) 8) hb).
Proof.
  intros Hne HV HC HN HT Hneed E HU HU'.
  destruct (edm_buffer_result vars caps rs host Hne HV HC HN HT Hneed w hw _ w' hw' E HU HU')
    as [(e' & p & Ee & Hp & Em & El & Ec & He & Hh)|(? & _)]; [|discriminate].
  injection Ee as <-. unfold host_ok in Hh. destruct (eb_host_mem e) as [hb|].
  - destruct Hh as (-> & Hb & Hl & _ & H1 & H2). split; [discriminate|]. intros _. exists hb. split; [reflexivity|].
    split; [rewrite Hl; left; reflexivity|auto].
  - destruct Hh as (-> & -> & H1 & H2). split; [auto|discriminate].
Qed.
