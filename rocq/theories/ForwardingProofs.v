From Verif Require Import Base BaseLemmas Forwarding.

(** ** Tagged lists *)

Lemma tremove1_in x b l : In x (tremove1 b l) -> In x l.
Proof.
  induction l as [|c l IH]; simpl; auto. destruct (tblock_eq_dec b c); simpl; tauto.
Qed.

Lemma tremove1_in_iff b l x : NoDup l -> (In x (tremove1 b l) <-> In x l /\ x <> b).
Proof.
  induction 1 as [|c l Hc HN IH]; simpl; [tauto|].
  destruct (tblock_eq_dec b c) as [->|NE]; simpl.
  - split; [intros H; split; auto; intros ->; auto|intros [[->|H] Hx]; auto; congruence].
  - rewrite IH. split; [intros [<-|[]]|intros [[->|] ]]; auto.
Qed.

Lemma NoDup_tremove1 b l : NoDup l -> NoDup (tremove1 b l).
Proof.
  induction 1 as [|c l Hc HN IH]; simpl; [constructor|].
  destruct (tblock_eq_dec b c); auto. constructor; auto.
  intros H. apply Hc. eapply tremove1_in; eauto.
Qed.

(** ** The address map *)

Lemma am_find_in m p r : am_find m p = Some r -> In (p, r) m.
Proof.
  induction m as [|[q s] m IH]; simpl; [discriminate|].
  destruct (Z.eqb_spec p q) as [->|]; [intros [= ->]; auto|auto].
Qed.

Lemma am_find_none m p : am_find m p = None <-> ~ In p (map fst m).
Proof.
  induction m as [|[q s] m IH]; simpl; [tauto|].
  destruct (Z.eqb_spec p q) as [->|NE].
  - split; [discriminate|tauto].
  - rewrite IH. split; [intros H [->|]; auto|tauto].
Qed.

Lemma am_find_iff m p r : NoDup (map fst m) -> (am_find m p = Some r <-> In (p, r) m).
Proof.
  intros HN. split; [apply am_find_in|].
  induction m as [|[q s] m IH]; simpl in *; [tauto|].
  inversion HN as [|? ? Hq HN']; subst.
  destruct (Z.eqb_spec p q) as [->|NE].
  - intros [[= ->]|H]; auto. exfalso. apply Hq. change q with (fst (q, r)). apply in_map. auto.
  - intros [[= -> ->]|H]; [congruence|auto].
Qed.

Lemma am_erase_in m p q r : NoDup (map fst m) ->
  (In (q, r) (am_erase m p) <-> In (q, r) m /\ q <> p).
Proof.
  induction m as [|[x s] m IH]; simpl; [tauto|]. intros HN.
  inversion HN as [|? ? Hx HN']; subst.
  destruct (Z.eqb_spec p x) as [->|NE].
  - split; [intros H; split; auto; intros ->|intros [[[= -> ->]|H] Hn]; auto; congruence].
    apply Hx. change x with (fst (x, r)). apply in_map. auto.
  - simpl. rewrite IH by auto. split; [intros [[= <- <-]|[]]|intros [[[= <- <-]|] ]]; auto.
Qed.

Lemma am_erase_nodup m p : NoDup (map fst m) -> NoDup (map fst (am_erase m p)).
Proof.
  induction m as [|[x s] m IH]; simpl; auto. intros HN.
  inversion HN as [|? ? Hx HN']; subst. destruct (Z.eqb_spec p x); auto.
  simpl. constructor; auto. intros H. apply in_map_iff in H. destruct H as ([y t] & E & H).
  simpl in E. subst y. apply Hx. apply in_map_iff. exists (x, t). split; auto.
  clear -H. induction m as [|[y u] m IH]; simpl in *; auto.
  destruct (p =? y); simpl in *; tauto.
Qed.

(** ** Choice and coalescing *)

(** An [alloc] of this kind either returns without any call for size 0, or adds
    failing calls and at most one final successful one. *)
Definition good_alloc (alloc : amap -> mworld -> Z -> Z -> outcome Z * amap * mworld) : Prop :=
  forall m w size align r m' w', alloc m w size align = (r, m', w') ->
  (r = UB -> False) /\
  exists fails, (forall x, In x fails -> exists u, x = (u, UAlloc size align None)) /\
  match r with
  | Ret p => (size = 0 /\ m' = m /\ mlog w' = mlog w /\ p = 0) \/
             (size <> 0 /\ exists u, mlog w' = (u, UAlloc size align (Some p)) :: fails ++ mlog w /\
              m' = am_emplace m p u)
  | _ => m' = m /\ mlog w' = fails ++ mlog w
  end.

Lemma choice_good dec : good_alloc (choice_allocate dec).
Proof.
  intros m w size align r m' w'. unfold choice_allocate.
  destruct (Z.eqb_spec size 0) as [E|NE].
  - intros [= <- <- <-]. split; [discriminate|]. exists []. split; [intros x []|]. left. auto.
  - unfold m_alloc. destruct (morc w (length (mlog w))) as [p|]; intros [= <- <- <-];
      (split; [discriminate|]).
    + exists []. split; [intros x []|]. right. split; auto. eexists. split; reflexivity.
    + exists [(dec (length (mlog w)) size align, UAlloc size align None)].
      split; [intros x [<-|[]]; eauto|]. auto.
Qed.

Lemma coalescing_good ups : good_alloc (coalescing_allocate ups).
Proof.
  intros m w size align r m' w'. unfold coalescing_allocate.
  destruct (Z.eqb_spec size 0) as [E|NE].
  - intros [= <- <- <-]. split; [discriminate|]. exists []. split; [intros x []|]. left. auto.
  - revert w. induction ups as [|u ups IH]; intros w; cbn [coalescing_loop].
    + intros [= <- <- <-]. split; [discriminate|]. exists []. split; [intros x []|]. auto.
    + unfold m_alloc. destruct (morc w (length (mlog w))) as [p|].
      * intros [= <- <- <-]. split; [discriminate|]. exists []. split; [intros x []|].
        right. split; auto. eexists. split; reflexivity.
      * intros E. destruct (IH _ E) as (HU & fails & HF & H). split; auto.
        exists (fails ++ [(u, UAlloc size align None)]). split.
        { intros x Hx. apply in_app_or in Hx. destruct Hx as [Hx|[<-|[]]]; eauto. }
        cbn [mlog] in H. destruct r as [p|e|]; rewrite <- app_assoc; try exact H.
        destruct H as [(Z0 & _)|H]; [congruence|]. right. exact H.
Qed.

Lemma mlive_fails size align fails l :
  (forall x, In x fails -> exists u, x = (u, UAlloc size align None)) ->
  mlive (fails ++ l) = mlive l.
Proof.
  induction fails as [|x fails IH]; simpl; auto. intros H.
  destruct (H x (or_introl eq_refl)) as (u & ->). apply IH. auto.
Qed.
Lemma distinct_fails size align fails l :
  (forall x, In x fails -> exists u, x = (u, UAlloc size align None)) ->
  distinct_ok (fails ++ l) -> distinct_ok l.
Proof.
  induction fails as [|x fails IH]; simpl; auto. intros H.
  destruct (H x (or_introl eq_refl)) as (u & ->). apply IH. auto.
Qed.

(** Invariant: the live blocks are those of the upstream log; the map holds
    exactly their addresses. *)
Definition tinv (m : amap) (w : mworld) (live : list tblock) : Prop :=
  live = mlive (mlog w) /\ NoDup (map fst m) /\ NoDup live /\
  (forall c, In c live -> bptr (snd c) <> 0) /\
  (forall c d, In c live -> In d live -> bptr (snd c) = bptr (snd d) -> c = d) /\
  (forall p r, In (p, r) m <-> exists b, In (r, b) live /\ bptr b = p).

Lemma tracked_free_spec m w live r b : tinv m w live -> In (r, b) live ->
  tracked_deallocate m w (bptr b) (bsize b) (balign b) =
    (Ret tt, am_erase m (bptr b), m_free w r (bptr b) (bsize b) (balign b)).
Proof.
  intros (E & N1 & N2 & NZ & HI & HM) Hin.
  unfold tracked_deallocate. destruct (Z.eqb_spec (bptr b) 0) as [Z0|_].
  { exfalso. apply (NZ (r, b)); auto. }
  assert (F : am_find m (bptr b) = Some r).
  { apply am_find_iff; auto. apply HM. exists b. auto. }
  rewrite F. reflexivity.
Qed.

Lemma tinv_free m w live r b : tinv m w live -> In (r, b) live ->
  tinv (am_erase m (bptr b)) (m_free w r (bptr b) (bsize b) (balign b)) (tremove1 (r, b) live).
Proof.
  intros (E & N1 & N2 & NZ & HI & HM) Hin. unfold tinv, m_free. cbn [mlog mlive].
  destruct b as [bp bs ba]. cbn [bptr bsize balign] in *.
  split; [rewrite E; reflexivity|]. split; [apply am_erase_nodup; auto|].
  split; [apply NoDup_tremove1; auto|].
  split; [intros c Hc; apply NZ; eapply tremove1_in; eauto|].
  split; [intros c d Hc Hd; apply HI; eapply tremove1_in; eauto|].
  intros q s. rewrite am_erase_in by auto. rewrite HM. split.
  - intros ((c & Hc & Ec) & NE). exists c. split; auto. apply tremove1_in_iff; auto.
    split; auto. intros [= -> ->]. simpl in Ec. congruence.
  - intros (c & Hc & Ec). apply tremove1_in_iff in Hc; auto. destruct Hc as [Hc NE].
    split; [exists c; auto|]. intros ->. apply NE. apply HI; auto.
Qed.

Lemma tracked_distinct m w p size align r m' w' :
  tracked_deallocate m w p size align = (r, m', w') ->
  distinct_ok (mlog w') -> distinct_ok (mlog w).
Proof.
  unfold tracked_deallocate. destruct (p =? 0); [intros [= <- <- <-]; auto|].
  destruct (am_find m p); intros [= <- <- <-]; auto.
Qed.

Lemma treach_tinv alloc m w live : good_alloc alloc ->
  treach alloc tracked_deallocate m w live -> distinct_ok (mlog w) -> tinv m w live.
Proof.
  intros HG. induction 1 as [w Hw|m w live size align p m' w' HR IH E|m w live size align e m' w' HR IH E
    |m w live r b m' w' HR IH Hin E|m w live size align m' w' HR IH E]; intros HD.
  - split; [rewrite Hw; reflexivity|]. split; [constructor|]. split; [constructor|].
    split; [intros c []|]. split; [intros c d []|]. intros p r. split; [intros []|intros (b & [] & _)].
  - destruct (HG _ _ _ _ _ _ _ E) as (_ & fails & HF & H).
    destruct H as [(Z0 & -> & Ew & ->)|(NZ & u & Ew & ->)].
    + rewrite (proj2 (Z.eqb_eq size 0) Z0). rewrite Ew in HD. destruct (IH HD) as (EL & H).
      split; [rewrite Ew; exact EL|exact H].
    + rewrite (proj2 (Z.eqb_neq size 0) NZ). unfold newest. rewrite Ew in *. unfold tinv. rewrite Ew.
      simpl in HD. destruct HD as (Hp & Hnew & HD).
      destruct (IH (distinct_fails _ _ _ _ HF HD)) as (EL & N1 & N2 & NZ' & HI & HM).
      simpl. rewrite (mlive_fails size align) in * by auto. rewrite <- EL in *.
      assert (Hfresh : am_find m p = None).
      { apply am_find_none. intros Hin. apply in_map_iff in Hin. destruct Hin as ([q r] & Eq & Hin).
        simpl in Eq. subst q. apply HM in Hin. destruct Hin as (b & Hb & Eb).
        apply (Hnew _ Hb). exact Eb. }
      unfold am_emplace. rewrite Hfresh. split; [reflexivity|]. split; [|split; [|split; [|split]]].
      -- simpl. constructor; auto. apply am_find_none. auto.
      -- constructor; auto. intros Hin. apply (Hnew _ Hin). reflexivity.
      -- intros c [<-|Hc]; auto.
      -- intros c d [<-|Hc] [<-|Hd] Eb; auto.
         ++ exfalso. apply (Hnew _ Hd). auto.
         ++ exfalso. apply (Hnew _ Hc). auto.
      -- intros q r. simpl. split.
         ++ intros [[= <- <-]|Hin]; [exists (mkBlock p size align); auto|].
            apply HM in Hin. destruct Hin as (b & Hb & Eb). exists b. auto.
         ++ intros (b & [[= <- <-]|Hb] & Eb); [left; simpl in Eb; congruence|].
            right. apply HM. exists b. auto.
  - destruct (HG _ _ _ _ _ _ _ E) as (_ & fails & HF & -> & Ew). rewrite Ew in HD.
    destruct (IH (distinct_fails _ _ _ _ HF HD)) as (EL & H). split; auto.
    rewrite Ew. rewrite (mlive_fails size align); auto.
  - pose proof (IH (tracked_distinct _ _ _ _ _ _ _ _ E HD)) as HI.
    rewrite (tracked_free_spec _ _ _ _ _ HI Hin) in E. injection E as <- <-.
    apply tinv_free; auto.
  - unfold tracked_deallocate in E. simpl in E. injection E as <- <-. auto.
Qed.

(** *** What the property files state *)

Lemma choice_allocate_spec dec m w size align : size <> 0 ->
  exists res w', mlog w' = (dec (length (mlog w)) size align, UAlloc size align res) :: mlog w /\
  match res with
  | Some p => exists m', choice_allocate dec m w size align = (Ret p, m', w')
  | None => choice_allocate dec m w size align = (Throw bad_alloc, m, w')
  end.
Proof.
  intros NZ. unfold choice_allocate. rewrite (proj2 (Z.eqb_neq size 0) NZ).
  unfold m_alloc. destruct (morc w (length (mlog w))) as [p|].
  - exists (Some p). eexists. split; [|eexists; reflexivity]. reflexivity.
  - exists None. eexists. split; [|reflexivity]. reflexivity.
Qed.

Lemma tracked_deallocate_ok alloc m w live : good_alloc alloc ->
  treach alloc tracked_deallocate m w live -> distinct_ok (mlog w) ->
  (forall r b, In (r, b) live -> exists m' w',
     tracked_deallocate m w (bptr b) (bsize b) (balign b) = (Ret tt, m', w') /\
     mlog w' = (r, UFree (bptr b) (bsize b) (balign b)) :: mlog w) /\
  live = mlive (mlog w) /\ NoDup (map fst m) /\
  (forall p r, In (p, r) m <-> exists b, In (r, b) live /\ bptr b = p).
Proof.
  intros HG HR HD. pose proof (treach_tinv _ _ _ _ HG HR HD) as HI. split.
  - intros r b Hin. rewrite (tracked_free_spec _ _ _ _ _ HI Hin). eexists. eexists.
    split; [reflexivity|]. reflexivity.
  - destruct HI as (E & N1 & _ & _ & _ & HM). auto.
Qed.

Lemma coalescing_allocate_spec ups m w size align : size <> 0 ->
  exists n, (n <= length ups)%nat /\
  (forall i, (i < n)%nat -> morc w (length (mlog w) + i) = None) /\
  let fails := rev (map (fun u => (u, UAlloc size align None)) (firstn n ups)) in
  (n = length ups /\ exists w', mlog w' = fails ++ mlog w /\
     coalescing_allocate ups m w size align = (Throw bad_alloc, m, w')) \/
  (exists u p m' w', nth_error ups n = Some u /\ morc w (length (mlog w) + n) = Some p /\
     mlog w' = (u, UAlloc size align (Some p)) :: fails ++ mlog w /\
     coalescing_allocate ups m w size align = (Ret p, m', w')).
Proof.
  intros NZ. unfold coalescing_allocate. rewrite (proj2 (Z.eqb_neq size 0) NZ).
  revert w. induction ups as [|u ups IH]; intros w; cbn [coalescing_loop].
  - exists O. split; [auto|]. split; [intros i Hi; lia|]. left. split; auto. exists w. auto.
  - unfold m_alloc. destruct (morc w (length (mlog w))) as [p|] eqn:E.
    + exists O. split; [lia|]. split; [intros i Hi; lia|]. right.
      exists u, p. eexists. eexists. split; [reflexivity|].
      split; [rewrite Nat.add_0_r; exact E|]. split; [|reflexivity]. reflexivity.
    + destruct (IH (mkMWorld ((u, UAlloc size align None) :: mlog w) (morc w))) as (n & Hn & HF & H).
      cbn [mlog morc length] in *. exists (S n). split; [simpl; lia|]. split.
      { intros [|i] Hi; [rewrite Nat.add_0_r; exact E|].
        rewrite <- (HF i) by lia. f_equal. lia. }
      destruct H as [(En & w' & Ew & EQ)|(v & p & m' & w' & Hv & Hp & Ew & EQ)].
      * left. split; [simpl; lia|]. exists w'. split; auto. rewrite Ew. simpl. rewrite <- app_assoc. reflexivity.
      * right. exists v, p, m', w'. split; auto.
        split; [rewrite <- Hp; f_equal; lia|]. split; auto.
        rewrite Ew. simpl. rewrite <- app_assoc. reflexivity.
Qed.

(** ** Debug *)

Lemma d_overlaps_iff p size align b : 0 < size -> 0 < bsize b ->
  (d_overlaps p size b = true <-> overlap (mkBlock p size align) b).
Proof.
  intros H1 H2. unfold d_overlaps, overlap, in_block. simpl. rewrite andb_true_iff, !Z.ltb_lt. split.
  - intros [A B]. exists (Z.max p (bptr b)). lia.
  - intros (x & A & B). lia.
Qed.

Definition dinv (m : dstate) (out : list block) : Prop :=
  m = out /\ (forall b, In b out -> 0 < bsize b) /\ pairwise_disjoint out.

Lemma same_ptr_overlap b c : 0 < bsize b -> 0 < bsize c -> bptr b = bptr c -> overlap b c.
Proof. intros. exists (bptr b). unfold in_block. lia. Qed.

Lemma d_find_spec m p : (forall b, In b m -> 0 < bsize b) -> pairwise_disjoint m ->
  match d_find m p with
  | Some b => In b m /\ bptr b = p /\ (forall c, In c m -> bptr c = p -> c = b)
  | None => forall c, In c m -> bptr c <> p
  end.
Proof.
  induction m as [|b m IH]; simpl; intros HS HP; [intros c []|].
  destruct HP as [HP1 HP2]. destruct (Z.eqb_spec p (bptr b)) as [->|NE].
  - split; auto. split; auto. intros c [<-|Hc] E; auto. exfalso.
    apply (HP1 c Hc). apply same_ptr_overlap; auto.
  - specialize (IH (fun c Hc => HS c (or_intror Hc)) HP2).
    destruct (d_find m p) as [c|].
    + destruct IH as (A & B & C). split; auto. split; auto. intros d [<-|Hd] E; [congruence|auto].
    + intros c [<-|Hc]; auto.
Qed.

Lemma d_erase_remove1 m b : (forall b, In b m -> 0 < bsize b) -> pairwise_disjoint m -> In b m ->
  d_erase m (bptr b) = remove1 b m.
Proof.
  induction m as [|c m IH]; simpl; intros HS HP Hin; [tauto|].
  destruct HP as [HP1 HP2]. destruct (block_eq_dec b c) as [->|NE].
  - rewrite Z.eqb_refl. reflexivity.
  - destruct Hin as [->|Hin]; [congruence|].
    destruct (Z.eqb_spec (bptr b) (bptr c)) as [E|_].
    + exfalso. apply (HP1 b Hin). apply same_ptr_overlap; auto.
    + f_equal. apply IH; auto.
Qed.

(** One allocation in a state with known outstanding blocks. *)
Lemma debug_allocate_spec m out w size align : dinv m out -> 0 < size ->
  let w' := snd (up_alloc w size align) in
  match fst (up_alloc w size align) with
  | None => debug_allocate m w size align = (Throw bad_alloc, m, w')
  | Some p =>
      ((exists c, In c out /\ overlap (mkBlock p size align) c) /\
         debug_allocate m w size align = (Throw logic_error, m, w')) \/
      ((forall c, In c out -> ~ overlap (mkBlock p size align) c) /\
         debug_allocate m w size align = (Ret p, mkBlock p size align :: m, w') /\
         dinv (mkBlock p size align :: m) (mkBlock p size align :: out))
  end.
Proof.
  intros (-> & HS & HP) Hs. unfold debug_allocate. destruct (Z.eqb_spec size 0); [lia|].
  unfold up_alloc. cbn [fst snd]. destruct (uorc w (length (ulog w))) as [p|]; [|reflexivity].
  destruct (existsb (d_overlaps p size) out) eqn:E.
  - left. split; auto. apply existsb_exists in E. destruct E as (c & Hc & E). exists c. split; auto.
    apply (d_overlaps_iff p size align c) in E; auto.
  - right.
    assert (HN : forall c, In c out -> ~ overlap (mkBlock p size align) c).
    { intros c Hc HO. apply (d_overlaps_iff p size align c) in HO; auto.
      assert (existsb (d_overlaps p size) out = true) by (apply existsb_exists; eauto). congruence. }
    split; auto. unfold d_emplace. cbn [bptr].
    pose proof (d_find_spec out p HS HP) as HF. destruct (d_find out p) as [b|].
    + exfalso. destruct HF as (Hb & Eb & _). apply (HN b Hb). apply same_ptr_overlap; simpl; auto.
    + split; [reflexivity|]. split; [reflexivity|]. split.
      * intros c [<-|Hc]; simpl; auto.
      * simpl. auto.
Qed.

Lemma debug_deallocate_spec m out w p size align : dinv m out ->
  (p = 0 /\ debug_deallocate m w p size align = (Ret tt, m, w)) \/
  (p <> 0 /\ In (mkBlock p size align) out /\
   debug_deallocate m w p size align =
     (Ret tt, remove1 (mkBlock p size align) out, up_free w p size align)) \/
  (p <> 0 /\ ~ In (mkBlock p size align) out /\
   debug_deallocate m w p size align = (Throw logic_error, m, w)).
Proof.
  intros (-> & HS & HP). unfold debug_deallocate. destruct (Z.eqb_spec p 0) as [|NZ]; [left; auto|].
  right. pose proof (d_find_spec out p HS HP) as HF. destruct (d_find out p) as [b|].
  - destruct HF as (Hb & Eb & HU). destruct b as [bp bs ba]. simpl in Eb. subst bp. cbn [bsize balign].
    destruct (Z.eqb_spec bs size) as [->|NE]; cbn [negb orb].
    + destruct (Z.eqb_spec ba align) as [->|NE]; cbn [negb].
      * left. split; auto. split; auto. f_equal. f_equal.
        apply (d_erase_remove1 out (mkBlock p size align)); auto.
      * right. split; auto. split; auto. intros H. apply HU in H; auto. congruence.
    + right. split; auto. split; auto. intros H. apply HU in H; auto. congruence.
  - right. split; auto. split; auto. intros H. apply (HF _ H). reflexivity.
Qed.

Lemma dinv_remove1 m b : dinv m m -> dinv (remove1 b m) (remove1 b m).
Proof.
  intros (_ & HS & HP). split; auto. split.
  - intros c Hc. apply HS. eapply remove1_in; eauto.
  - apply pairwise_disjoint_remove1; auto.
Qed.

Fixpoint dops_ok (ops : list dop) : Prop :=
  match ops with
  | [] => True
  | DAlloc size _ :: ops' => 0 <= size /\ dops_ok ops'
  | DFree _ _ _ :: ops' => dops_ok ops'
  end.

Lemma debug_run_inv ops : forall m w out m' w' out', dinv m out -> dops_ok ops ->
  debug_run ops m w out = (m', w', out') -> dinv m' out'.
Proof.
  induction ops as [|[size align|p size align] ops IH]; cbn [debug_run dops_ok]; intros m w out m' w' out' HI HL E.
  - injection E as <- <- <-. exact HI.
  - destruct HL as [HL1 HL2]. destruct (Z.eq_dec size 0) as [->|NZ].
    + unfold debug_allocate in E. simpl in E. eapply IH; eauto.
    + rewrite (proj2 (Z.eqb_neq size 0) NZ) in E.
      assert (Hs : 0 < size) by lia. pose proof (debug_allocate_spec m out w size align HI Hs) as H.
      cbv zeta in H.
      destruct (fst (up_alloc w size align)) as [p|].
      * destruct H as [(_ & H)|(_ & H & HI')]; rewrite H in E; eapply IH; eauto.
      * rewrite H in E. eapply IH; eauto.
  - destruct (debug_deallocate_spec m out w p size align HI) as [(-> & H)|[(NZ & Hin & H)|(NZ & Hin & H)]];
      rewrite H in E.
    + rewrite Z.eqb_refl in E. eapply IH; eauto.
    + rewrite (proj2 (Z.eqb_neq p 0) NZ) in E. eapply IH; [|exact HL|exact E].
      destruct HI as (-> & HI). apply dinv_remove1. split; auto.
    + eapply IH; eauto.
Qed.

Lemma dinv_init : dinv [] [].
Proof. split; auto. split; [intros b []|exact I]. Qed.

Lemma debug_rejects ops w0 m w out : dops_ok ops -> debug_run ops [] w0 [] = (m, w, out) ->
  (forall p size align, p <> 0 -> ~ In (mkBlock p size align) out ->
     debug_deallocate m w p size align = (Throw logic_error, m, w)) /\
  (forall p size align, p <> 0 -> In (mkBlock p size align) out ->
     exists m', debug_deallocate m w p size align = (Ret tt, m', up_free w p size align)) /\
  (forall size align p, 0 < size -> fst (up_alloc w size align) = Some p ->
     let w' := snd (up_alloc w size align) in
     ((exists c, In c out /\ overlap (mkBlock p size align) c) ->
        debug_allocate m w size align = (Throw logic_error, m, w')) /\
     ((forall c, In c out -> ~ overlap (mkBlock p size align) c) ->
        exists m', debug_allocate m w size align = (Ret p, m', w'))) /\
  pairwise_disjoint out.
Proof.
  intros HL E. pose proof (debug_run_inv _ _ _ _ _ _ _ dinv_init HL E) as HI.
  split; [|split; [|split]].
  - intros p size align NZ Hn.
    destruct (debug_deallocate_spec m out w p size align HI) as [(-> & H)|[(_ & Hin & H)|(_ & Hin & H)]]; tauto.
  - intros p size align NZ Hn.
    destruct (debug_deallocate_spec m out w p size align HI) as [(-> & H)|[(_ & Hin & H)|(_ & Hin & H)]];
      try tauto. eauto.
  - intros size align p Hs Hp w'. pose proof (debug_allocate_spec m out w size align HI Hs) as H.
    rewrite Hp in H. cbv zeta in H. fold w' in H. split.
    + intros (c & Hc & HO). destruct H as [(_ & H)|(HN & _)]; auto. exfalso. apply (HN c); auto.
    + intros HN. destruct H as [((c & Hc & HO) & _)|(_ & H & _)]; [exfalso; apply (HN c); auto|].
      eauto.
  - apply HI.
Qed.

(** Legal histories over an upstream that keeps its promise. *)
Definition nonneg (size align : Z) : Prop := 0 <= size.

Lemma debug_reach_inv m w live :
  reach debug_allocate debug_deallocate nonneg [] fresh m w live ->
  upstream_ok (ulog w) ->
  dinv m live /\ live = ulive (ulog w) /\ (forall b, In b live -> bptr b <> 0).
Proof.
  induction 1 as [w Hw|m w live size align p m' w' HR IH HL E|m w live size align e m' w' HR IH HL E
    |m w live b m' w' HR IH Hin E|m w live size align m' w' HR IH E]; intros HU.
  - split; [apply dinv_init|]. split; [rewrite Hw; reflexivity|intros b []].
  - unfold nonneg in HL. destruct (Z.eqb_spec size 0) as [->|NZ].
    + unfold debug_allocate in E. simpl in E. injection E as <- <- <-. auto.
    + assert (Hs : 0 < size) by lia.
      destruct (up_alloc w size align) as [a w1] eqn:EU.
      unfold debug_allocate in E. rewrite (proj2 (Z.eqb_neq size 0) NZ) in E. rewrite EU in E.
      destruct a as [q|]; [|discriminate].
      destruct (existsb (d_overlaps q size) m) eqn:EX; [discriminate|]. injection E as <- <- <-.
      unfold up_alloc in EU. injection EU as EO <-. rewrite EO in HU. cbn [ulog upstream_ok] in HU.
      destruct HU as (U1 & U2 & U3 & U4 & U5). destruct (IH U5) as (HI & EL & HZ).
      pose proof (debug_allocate_spec m live w size align HI Hs) as H.
      unfold up_alloc in H. cbn [fst snd] in H. rewrite EO in H.
      destruct H as [((c & Hc & HO) & H)|(HN & H & HI')].
      { rewrite EL in Hc. exfalso. apply (U4 c); auto. }
      unfold debug_allocate in H. rewrite (proj2 (Z.eqb_neq size 0) NZ) in H.
      unfold up_alloc in H. rewrite EO, EX in H. injection H as H. rewrite H.
      split; auto. split; [cbn [ulog ulive]; rewrite EO, EL; reflexivity|].
      intros b [<-|Hb]; simpl; [lia|auto].
  - destruct (Z.eqb_spec size 0) as [->|NZ]; [unfold debug_allocate in E; discriminate|].
    unfold nonneg in HL. assert (Hs : 0 < size) by lia.
    unfold debug_allocate in E. rewrite (proj2 (Z.eqb_neq size 0) NZ) in E.
    unfold up_alloc in E. destruct (uorc w (length (ulog w))) as [q|] eqn:EO.
    + destruct (existsb (d_overlaps q size) m) eqn:EX; [|discriminate]. injection E as <- <- <-.
      cbn [ulog upstream_ok] in HU. destruct HU as (U1 & U2 & U3 & U4 & U5).
      destruct (IH U5) as ((-> & HS & HP) & EL & HZ). apply existsb_exists in EX.
      destruct EX as (c & Hc & EX). apply (d_overlaps_iff q size align c) in EX; auto.
      exfalso. apply (U4 c); auto. rewrite <- EL. auto.
    + injection E as <- <- <-. cbn [ulog ulive]. cbn [ulog upstream_ok] in HU. auto.
  - destruct (debug_deallocate m w (bptr b) (bsize b) (balign b)) as [[r1 m1] w1] eqn:EF.
    assert (HU' : upstream_ok (ulog w)).
    { unfold debug_deallocate in EF. destruct (bptr b =? 0); [injection EF as <- <- <-; congruence|].
      destruct (d_find m (bptr b)) as [c|]; [|congruence].
      destruct (negb (bsize c =? bsize b) || negb (balign c =? balign b)); [congruence|].
      injection EF as <- <- <-. injection E as <- <-. exact HU. }
    destruct (IH HU') as (HI & EL & HZ).
    destruct (debug_deallocate_spec m live w (bptr b) (bsize b) (balign b) HI)
      as [(Z0 & H)|[(_ & _ & H)|(_ & Hn & H)]].
    + exfalso. apply (HZ b); auto.
    + rewrite H in EF. injection EF as <- <- <-. injection E as <- <-.
      destruct b as [bp bs ba]. cbn [bptr bsize balign] in *.
      destruct HI as (-> & HI). split; [apply dinv_remove1; split; auto|].
      split; [rewrite EL; reflexivity|]. intros c Hc. apply HZ. eapply remove1_in; eauto.
    + exfalso. apply Hn. destruct b; auto.
  - unfold debug_deallocate in E. simpl in E. injection E as <- <-. auto.
Qed.

Lemma debug_transparent m w live :
  reach debug_allocate debug_deallocate nonneg [] fresh m w live ->
  (forall size align, 0 <= size ->
     upstream_ok (ulog (snd (identity_allocate w size align))) ->
     exists m', debug_allocate m w size align =
       (fst (identity_allocate w size align), m', snd (identity_allocate w size align))) /\
  (upstream_ok (ulog w) -> forall b, In b live -> exists m',
     debug_deallocate m w (bptr b) (bsize b) (balign b) =
       (fst (identity_deallocate w (bptr b) (bsize b) (balign b)), m',
        snd (identity_deallocate w (bptr b) (bsize b) (balign b)))).
Proof.
  intros HR. split.
  - intros size align Hs HU. unfold identity_allocate in *. destruct (Z.eqb_spec size 0) as [->|NZ].
    { exists m. unfold debug_allocate. reflexivity. }
    unfold debug_allocate. rewrite (proj2 (Z.eqb_neq size 0) NZ).
    unfold up_alloc in *. destruct (uorc w (length (ulog w))) as [p|] eqn:EO; cbn [fst snd] in *; [|eauto].
    cbn [ulog upstream_ok] in HU. destruct HU as (U1 & U2 & U3 & U4 & U5).
    destruct (debug_reach_inv _ _ _ HR U5) as ((-> & HS & HP) & EL & HZ).
    destruct (existsb (d_overlaps p size) live) eqn:EX; [|eauto].
    exfalso. apply existsb_exists in EX. destruct EX as (c & Hc & EX).
    apply (d_overlaps_iff p size align c) in EX; auto; [|lia]. apply (U4 c); auto. rewrite <- EL. auto.
  - intros HU b Hb. destruct (debug_reach_inv _ _ _ HR HU) as (HI & EL & HZ).
    destruct (debug_deallocate_spec m live w (bptr b) (bsize b) (balign b) HI)
      as [(Z0 & H)|[(NZ & _ & H)|(_ & Hn & H)]].
    + exfalso. apply (HZ b); auto.
    + unfold identity_deallocate. rewrite (proj2 (Z.eqb_neq _ 0) NZ). eauto.
    + exfalso. apply Hn. destruct b; auto.
Qed.

(** ** Conditional *)

Lemma conditional_spec pred n w size align :
  (size > 0 /\ pred n size align = true /\
     conditional_allocate pred n w size align =
       (match fst (up_alloc w size align) with Some p => Ret p | None => Throw bad_alloc end,
        mkWorld (UAlloc size align (fst (up_alloc w size align)) :: ulog w) (uorc w))) \/
  (size > 0 /\ pred n size align = false /\
     conditional_allocate pred n w size align = (Throw bad_alloc, w)) \/
  (size = 0 /\ conditional_allocate pred n w size align = (Ret 0, w)) \/ size < 0.
Proof.
  unfold conditional_allocate. destruct (Z.eqb_spec size 0); [auto|].
  destruct (Z_lt_ge_dec size 0); [auto|].
  destruct (pred n size align) eqn:E.
  - left. split; [lia|]. split; auto. unfold up_alloc. cbn [fst].
    destruct (uorc w (length (ulog w))); reflexivity.
  - right. left. split; [lia|]. auto.
Qed.

Lemma conditional_free w p size align : p <> 0 ->
  conditional_deallocate w p size align =
    (Ret tt, mkWorld (UFree p size align :: ulog w) (uorc w)).
Proof. intros. unfold conditional_deallocate. rewrite (proj2 (Z.eqb_neq p 0)); auto. Qed.
