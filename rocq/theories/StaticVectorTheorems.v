(** Sequences of calls, constructors, lifetimes, aliasing and asserts of static_vector. *)
From Verif Require Import Base BaseLemmas Slots StaticVector StaticVectorProofs.

Section Theorems.
  Context {A : Type}.
  Implicit Types (l v : list A) (rest : list (scell A)).
  Notation vals := (map (@SVal A)).
  Notation dead := (Forall (fun c : scell A => live c = false)).

  Theorem sruns_thm (dflt : A) ops : forall s l rs l', sholds s l ->
    (forall o, In o ops -> args_ok o = true /\ alias_ok o = true) ->
    slruns dflt (sv_cap s) l ops = Some (rs, l') ->
    exists s', sruns dflt s ops = Ret (rs, s') /\ sholds s' l' /\ sv_cap s' = sv_cap s.
  Proof.
    induction ops as [|o ops IH]; intros s l rs l' H Ho E; cbn [slruns sruns] in *.
    - injection E as <- <-. exists s. auto.
    - destruct (slstep dflt (sv_cap s) l o) as [[r l1]|] eqn:E1; [|discriminate].
      destruct (slruns dflt (sv_cap s) l1 ops) as [[rs1 l2]|] eqn:E2; [|discriminate]. injection E as <- <-.
      destruct (Ho o (or_introl eq_refl)) as (Ha & Hb).
      destruct (sstep_thm dflt s l o r l1 H Ha Hb E1) as (s1 & G & R & C). rewrite G. cbn [bind fst snd].
      destruct (IH s1 l1 rs1 l2 R) as (s2 & G2 & R2 & C2); [intros o' Ho'; apply Ho; right; auto|rewrite C; auto|].
      rewrite G2. cbn [bind fst snd]. exists s2. split; [reflexivity|]. split; [auto|congruence].
  Qed.

  Theorem selements_thm s l : sholds s l -> sv_elements s = Ret l.
  Proof.
    intros H. destruct (sholds_srel _ _ H) as (rest & R). pose proof (srel_eta _ _ _ R) as ->. clear H R.
    unfold sv_elements. cbn [sv_size sv_mem]. replace (Z.to_nat (slen l)) with (length l) by (unfold slen; lia).
    assert (G : forall v m1, sv_read_from (m1 ++ vals v ++ rest) (Z.of_nat (length m1)) (length v) = Ret v).
    { induction v as [|a v IH]; intros m1; cbn [length sv_read_from map app]; [reflexivity|].
      unfold sv_read at 1. replace (Z.of_nat (length m1) <? 0) with false by lia. rewrite Nat2Z.id, nth_split_mid. cbn [bind].
      replace (m1 ++ SVal a :: vals v ++ rest) with ((m1 ++ [SVal a]) ++ vals v ++ rest) by (rewrite <- app_assoc; reflexivity).
      replace (Z.of_nat (length m1) + 1) with (Z.of_nat (length (m1 ++ [SVal a]))) by (rewrite app_length; cbn [length]; lia).
      rewrite IH. reflexivity. }
    exact (G l []).
  Qed.

  (** *** Constructors and destructor *)
  Lemma raw_holds cap : Z.of_nat cap < 2 ^ 63 -> sholds (@sv_new A cap) [] /\ sv_cap (@sv_new A cap) = Z.of_nat cap.
  Proof.
    intros H. split; [|unfold sv_cap, sv_new; cbn [sv_mem]; rewrite repeat_length; reflexivity].
    apply (srel_sholds _ _ (repeat SRaw cap)). unfold sv_new. change (repeat SRaw cap) with (vals [] ++ repeat (@SRaw A) cap) at 1.
    apply srel_intro; [reflexivity|rewrite repeat_length; unfold slen; cbn [length]; lia|apply dead_repeat].
  Qed.
  Theorem new_range_thm cap v : Z.of_nat cap < 2 ^ 63 -> slen v <= Z.of_nat cap ->
    exists s, sv_new_range cap v = Ret s /\ sholds s v /\ sv_cap s = Z.of_nat cap.
  Proof.
    intros H Hv. destruct (raw_holds cap H) as (R & C). destruct (sholds_srel _ _ R) as (rest & R').
    destruct (assign_range_thm _ _ _ v R' ltac:(lia)) as (r1 & G & D & L). unfold sv_new_range. rewrite G.
    eexists. split; [reflexivity|]. split.
    - apply (srel_sholds _ _ r1). apply srel_intro; [reflexivity|lia|auto].
    - unfold sv_cap at 1. cbn [sv_mem]. rewrite app_length, map_length. unfold slen in L. lia.
  Qed.
  Lemma copy_loop parent n v : forall m1 l rest, sv_mem parent = vals l ++ rest ->
    forall pre, l = pre ++ v -> length m1 = length pre -> forall raw, dead raw -> (length v <= length raw)%nat ->
    sv_loop (sv_copy_each parent) (mkS n (m1 ++ raw) 0) (Z.of_nat (length m1)) (length v) =
      Ret (mkS n (m1 ++ vals v ++ skipn (length v) raw) 0).
  Proof.
    induction v as [|a v IH]; intros m1 l rest Hm pre El L raw D Hr; cbn [length sv_loop map skipn app]; [reflexivity|].
    destruct raw as [|c raw]; [cbn in Hr; lia|]. inversion D; subst.
    unfold sv_copy_each at 1. rewrite Hm. rewrite (sread_val (pre ++ a :: v) rest (Z.of_nat (length m1)) a).
    2:{ cbn [sval]. replace (Z.of_nat (length m1) <? 0) with false by lia. rewrite Nat2Z.id, L. apply nth_split_mid. }
    cbn [bind]. rewrite (construct_at n m1 c raw (AVal a) a) by auto. cbn [bind].
    replace (m1 ++ SVal a :: raw) with ((m1 ++ [SVal a]) ++ raw) by (rewrite <- app_assoc; reflexivity).
    replace (Z.of_nat (length m1) + 1) with (Z.of_nat (length (m1 ++ [SVal a]))) by (rewrite app_length; cbn [length]; lia).
    rewrite (IH (m1 ++ [SVal a]) (pre ++ a :: v) rest Hm (pre ++ [a])); auto.
    - rewrite <- app_assoc. reflexivity.
    - rewrite <- app_assoc. reflexivity.
    - rewrite !app_length, L. reflexivity.
    - cbn in Hr. lia.
  Qed.
  Theorem new_copy_thm p l : sholds p l -> exists s, sv_new_copy p = Ret s /\ sholds s l /\ sv_cap s = sv_cap p.
  Proof.
    intros H. destruct (sholds_srel _ _ H) as (rest & R). pose proof (srel_cap _ _ _ R) as Hc. pose proof R as (H1 & H2 & H3 & H4 & H5).
    unfold sv_new_copy. rewrite H2. unfold sv_cap in Hc.
    pose proof (copy_loop p (slen l) l [] l rest H3 [] eq_refl eq_refl (repeat SRaw (length (sv_mem p))) (dead_repeat _)) as G.
    rewrite repeat_length in G. unfold slen in Hc. specialize (G ltac:(lia)). cbn [app length] in G. change (Z.of_nat 0) with 0 in G.
    replace (Z.to_nat (slen l)) with (length l) by (unfold slen; lia). rewrite G. eexists. split; [reflexivity|].
    assert (L : Z.of_nat (length (vals l ++ skipn (length l) (repeat (@SRaw A) (length (sv_mem p))))) = sv_cap p).
    { rewrite app_length, map_length, skipn_length, repeat_length. unfold sv_cap. lia. }
    split; [|exact L]. apply (srel_sholds _ _ (skipn (length l) (repeat SRaw (length (sv_mem p))))).
    apply srel_intro; [reflexivity| |apply dead_skipn, dead_repeat]. rewrite app_length, map_length in L. unfold slen. lia.
  Qed.
  Theorem delete_thm s l : sholds s l -> exists s', sv_delete s = Ret s' /\ sholds s' [].
  Proof.
    intros H. destruct (sholds_srel _ _ H) as (rest & R). destruct (clear_thm _ _ _ R) as (r1 & G & D & L). unfold sv_delete. rewrite G.
    exists (mkS 0 r1 0). split; [reflexivity|]. apply (srel_sholds _ _ r1). change r1 with (vals [] ++ r1) at 1.
    apply srel_intro; [reflexivity| |auto]. change (slen []) with 0. pose proof R as (H1 & _). lia.
  Qed.

  (** Filling constructor: for a positive size, the first thing it does is to destroy an
      object which was never created. *)
  Theorem new_fill_bad cap n (x : A) : 0 < n -> sv_new_fill cap n x = UB.
  Proof.
    intros Hn. unfold sv_new_fill, sv_assign, assert, sv_cap. cbn [sv_mem]. rewrite repeat_length.
    destruct (n <=? Z.of_nat cap) eqn:E; [|reflexivity]. unfold sv_clear. cbn [sv_size].
    destruct (Z.to_nat n) as [|k] eqn:En; [lia|]. cbn [sv_loop]. unfold sv_destruct, assert. cbn [sv_size sv_mem].
    replace ((0 <=? 0) && (0 <? n)) with true by lia. change (Z.to_nat 0) with 0%nat.
    destruct cap as [|c]; [lia|]. cbn [repeat nth_error]. reflexivity.
  Qed.

  (** *** Lifetimes *)
  (** Slot [i] of the vector holds an object. *)
  Definition sobject (s : svec A) (i : nat) : Prop := exists a, nth_error (sv_mem s) i = Some (SVal a).
  Theorem lifetimes_thm s l : sholds s l -> sv_lost s = 0%nat /\ forall i, sobject s i <-> Z.of_nat i < sv_size s.
  Proof.
    intros (H1 & H2 & H3 & H4 & H5 & H6). split; [auto|]. intros i. rewrite H2. unfold slen, sobject. split.
    - intros (a & Ha). destruct (Nat.lt_ge_cases i (length l)) as [C|C]; [lia|]. exfalso. exact (H6 i a C Ha).
    - intros Hi. destruct (H5 i ltac:(lia)) as (a & _ & Ha). exists a. exact Ha.
  Qed.

  (** *** The value inserted for a late alias *)
  Theorem late_alias_thm s l p n i : sholds s l -> 0 < n -> 0 <= p <= slen l -> slen l + n <= sv_cap s -> p + n <= i < slen l ->
    exists b, nth_error l (Z.to_nat (i - n)) = Some b /\
    exists s', sv_insert_n s p n (ARef i) = Ret (p, s') /\ sholds s' (linsert l p (repeat b (Z.to_nat n))).
  Proof.
    intros H Hn Hp Hs Hi. destruct (nth_error l (Z.to_nat (i - n))) as [b|] eqn:Eb.
    2:{ apply nth_error_None in Eb. unfold slen in *. lia. }
    exists b. split; [reflexivity|]. destruct (sholds_srel _ _ H) as (rest & R). pose proof (srel_cap _ _ _ R) as Hc.
    pose proof R as (H1 & H2 & H3 & H4 & H5).
    unfold sv_insert_n, assert. rewrite H2. rewrite (Z.mod_small (slen l + n) (2 ^ 64)) by lia. replace (slen l + n <=? sv_cap s) with true by lia.
    rewrite (sid_ok s l rest p R Hp). cbn [bind]. pose proof (srel_eta _ _ _ R) as Eta. set (C := sv_cap s) in *. rewrite Eta.
    set (k := Z.to_nat n). set (q := Z.to_nat p). set (l1 := firstn q l). set (l2 := skipn q l).
    assert (El : l = l1 ++ l2) by (symmetry; apply firstn_skipn).
    assert (L1 : length l1 = q) by (unfold l1; rewrite firstn_length; unfold slen in Hp; lia).
    assert (L2 : slen l - p = slen l2) by (unfold slen; rewrite El, app_length, L1; lia).
    assert (Em : vals l ++ rest = vals l1 ++ vals l2 ++ rest) by (rewrite app_assoc, <- map_app, <- El; reflexivity).
    rewrite L2, Em.
    pose proof (move_up (slen l) (vals l1) l2 rest k ltac:(lia) H5) as M. rewrite map_length, L1 in M.
    replace (Z.of_nat q) with p in M by lia. replace (Z.of_nat k) with n in M by lia. rewrite M. cbn [bind].
    pose proof (construct_loop' (slen l) k (vals l1) (firstn k (map ghost (vals l2) ++ rest)) (vals l2 ++ skipn k rest) (ARef i) b) as G.
    rewrite map_length, L1 in G. replace (Z.of_nat q) with p in G by lia. rewrite G.
    - cbn [bind]. eexists. split; [reflexivity|]. apply (srel_sholds _ _ (skipn k rest)). unfold with_size. cbn [sv_size sv_mem sv_lost].
      replace (vals l1 ++ vals (repeat b k) ++ vals l2 ++ skipn k rest) with (vals (linsert l p (repeat b k)) ++ skipn k rest)
        by (unfold linsert; fold q l1 l2; rewrite !map_app, <- !app_assoc; reflexivity).
      assert (Sl : slen (linsert l p (repeat b k)) = slen l + n) by (rewrite slen_linsert, slen_repeat by auto; lia).
      apply srel_intro; [lia| |apply dead_skipn; auto]. rewrite Sl, skipn_length. lia.
    - rewrite firstn_length, app_length, !map_length. lia.
    - apply dead_firstn. apply Forall_app. split; [apply dead_ghost|auto].
    - intros j done Hj _. cbn [sv_arg]. unfold sv_read. replace (i <? 0) with false by lia.
      rewrite nth_error_app2 by (rewrite map_length; lia). rewrite map_length, L1.
      rewrite nth_error_app2 by (rewrite map_length, repeat_length; lia). rewrite map_length, repeat_length.
      assert (Lf : length (firstn k (map ghost (vals l2) ++ rest)) = k) by (rewrite firstn_length, app_length, !map_length; lia).
      rewrite nth_error_app2; rewrite skipn_length, Lf; [|lia].
      assert (X : nth_error (vals l2) (Z.to_nat i - q - j - (k - j)) = Some (SVal b)).
      { rewrite nth_error_map. rewrite El in Eb. rewrite nth_error_app2, L1 in Eb by lia.
        replace (Z.to_nat i - q - j - (k - j))%nat with (Z.to_nat (i - n) - q)%nat by lia. rewrite Eb. reflexivity. }
      rewrite nth_error_app1 by (apply nth_error_Some; congruence). rewrite X. reflexivity.
  Qed.

  Theorem early_alias_thm s l p n i a : sholds s l -> 0 < n -> 0 <= p <= slen l -> slen l + n <= sv_cap s -> 0 <= i < p + n ->
    nth_error l (Z.to_nat i) = Some a ->
    exists s', sv_insert_n s p n (ARef i) = Ret (p, s') /\ sholds s' (linsert l p (repeat a (Z.to_nat n))).
  Proof.
    intros H Hn Hp Hs Hi Ha. destruct (sholds_srel _ _ H) as (rest & R).
    assert (El : lins (sv_cap s) l p n (ARef i) = Some (linsert l p (repeat a (Z.to_nat n)))).
    { unfold lins. cbn [sval]. replace ((0 <=? p) && (p <=? slen l) && (0 <=? n) && (slen l + n <=? sv_cap s)) with true by lia.
      replace (n =? 0) with false by lia. replace (i <? 0) with false by lia. rewrite Ha. reflexivity. }
    destruct (insert_n_thm s l rest p n (ARef i) _ R ltac:(lia) El) as (r1 & G & R1 & _); [intros j Hj; injection Hj as <-; left; lia|].
    rewrite G. eexists. split; [reflexivity|]. apply (srel_sholds _ _ r1 R1).
  Qed.

  Theorem copy_assign_values (a b : svec A) l : sholds b l -> sv_elements (sv_copy_assign a b) = Ret l.
  Proof.
    intros H. rewrite <- (selements_thm b l H). unfold sv_elements, sv_copy_assign. cbn [sv_size sv_mem].
    generalize (Z.to_nat (sv_size b)) as n. generalize 0 as i. intros i n. revert i.
    induction n as [|n IH]; intros i; cbn [sv_read_from]; [reflexivity|].
    assert (E : sv_read (map ghost (sv_mem b)) i = sv_read (sv_mem b) i).
    { unfold sv_read. destruct (i <? 0); [reflexivity|]. rewrite nth_error_map. destruct (nth_error (sv_mem b) (Z.to_nat i)) as [[| |]|]; reflexivity. }
    rewrite E, IH. reflexivity.
  Qed.

  (** *** Calls which are not allowed stop at an assert *)
  Definition no_alias (o : sop A) : bool :=
    match o with
    | SAssign _ (ARef _) | SInsert _ (ARef _) | SInsertN _ _ (ARef _) | SEmplace _ (ARef _) | SEmplaceBack (ARef _)
    | SPush (ARef _) | SResizeVal _ (ARef _) => false
    | _ => true
    end.
  (** Iterators are within the range of [difference_type]. *)
  Definition iters_ok (o : sop A) : bool :=
    let ok p := (- 2 ^ 63 <=? p) && (p <? 2 ^ 63) in
    match o with
    | SInsert p _ | SInsertN p _ _ | SEmplace p _ | SErase p | SInsertRange p _ => ok p
    | SEraseRange p q => ok p && ok q
    | _ => true
    end.

  Lemma sid_bad s l rest p : srel s l rest -> - 2 ^ 63 <= p < 2 ^ 63 -> ~ (0 <= p <= slen l) -> sv_id s p = UB.
  Proof.
    intros R Hp Hb. pose proof (srel_cap _ _ _ R) as Hc. destruct R as (H1 & H2 & _). unfold sv_id, assert. rewrite H2.
    destruct (Z.lt_ge_cases p 0) as [C|C].
    - replace (p mod 2 ^ 64) with (p + 2 ^ 64) by (rewrite <- (Z.mod_small (p + 2 ^ 64) (2 ^ 64)) by lia; rewrite <- (Z_mod_plus_full p 1 (2 ^ 64)); f_equal; lia).
      replace (p + 2 ^ 64 <=? slen l) with false by lia. reflexivity.
    - rewrite (Z.mod_small p (2 ^ 64)) by lia. replace (p <=? slen l) with false by lia. reflexivity.
  Qed.

  Lemma append_each_bad v : forall l rest, dead rest -> (length rest < length v)%nat ->
    sv_append_each (mkS (slen l) (vals l ++ rest) 0) v = UB.
  Proof.
    induction v as [|a v IH]; intros l rest D L; [cbn in L; lia|]. cbn [sv_append_each]. unfold with_size. cbn [sv_size sv_mem sv_lost].
    destruct rest as [|c rest].
    - unfold sv_construct, assert, sv_cap. cbn [sv_mem]. rewrite app_nil_r, map_length. unfold slen.
      replace ((0 <=? Z.of_nat (length l)) && (Z.of_nat (length l) <? Z.of_nat (length l))) with false by lia. reflexivity.
    - inversion D; subst.
      replace (slen l) with (Z.of_nat (length (vals l))) at 2 by (rewrite map_length; reflexivity).
      rewrite (construct_at (slen l + 1) (vals l) c rest (AVal a) a) by auto. cbn [bind].
      replace (vals l ++ SVal a :: rest) with (vals (l ++ [a]) ++ rest) by (rewrite map_app, <- app_assoc; reflexivity).
      replace (slen l + 1) with (slen (l ++ [a])) by (unfold slen; rewrite app_length; cbn [length]; lia).
      apply IH; [auto|cbn in L; lia].
  Qed.

  Lemma insert_bad s l rest p x : srel s l rest -> - 2 ^ 63 <= p < 2 ^ 63 -> ~ (0 <= p <= slen l /\ slen l + 1 <= sv_cap s) ->
    sv_insert s p x = UB.
  Proof.
    intros R Hp Hb. unfold sv_insert, assert. rewrite (proj1 (proj2 R)). destruct (slen l <? sv_cap s) eqn:E; [|reflexivity].
    rewrite (sid_bad s l rest p R Hp) by lia. reflexivity.
  Qed.

  Lemma insert_each_bad v : forall s l rest p, srel s l rest -> 0 <= p <= slen l -> sv_cap s < slen l + slen v ->
    sv_insert_each s p v = UB.
  Proof.
    induction v as [|a v IH]; intros s l rest p R Hp Hv.
    - pose proof (srel_cap _ _ _ R). unfold slen at 2 in Hv. cbn [length] in Hv. lia.
    - cbn [sv_insert_each]. pose proof (srel_cap _ _ _ R) as Hc. pose proof R as (H1 & _).
      destruct (Z.le_gt_cases (slen l + 1) (sv_cap s)) as [C|C].
      + assert (El : lins (sv_cap s) l p 1 (AVal a) = Some (linsert l p [a])).
        { unfold lins. cbn [sval]. replace ((0 <=? p) && (p <=? slen l) && (0 <=? 1) && (slen l + 1 <=? sv_cap s)) with true by lia. reflexivity. }
        destruct (insert_thm s l rest p (AVal a) _ R El ltac:(discriminate)) as (r1 & G & R1 & C1). rewrite G. cbn [bind snd].
        assert (Sl : slen (linsert l p [a]) = slen l + 1) by (rewrite slen_linsert by auto; reflexivity).
        pose proof (srel_cap _ _ _ R1) as Cr. apply (IH _ _ _ _ R1); [lia|]. rewrite Cr, C1, Sl.
        replace (slen (a :: v)) with (slen v + 1) in Hv by (unfold slen; cbn [length]; lia). lia.
      + rewrite (insert_bad s l rest p (AVal a) R) by lia. reflexivity.
  Qed.

  Theorem asserts_thm (dflt : A) s l o : sholds s l -> args_ok o = true -> iters_ok o = true -> no_alias o = true ->
    (forall i, o <> SGet i) -> slstep dflt (sv_cap s) l o = None -> sstep dflt s o = UB.
  Proof.
    intros H Ha Hi Hn Hg E. destruct (sholds_srel _ _ H) as (rest & R). pose proof (srel_cap _ _ _ R) as Hc.
    pose proof R as (H1 & H2 & H3 & H4 & H5). assert (Sl : 0 <= slen l) by (unfold slen; lia).
    assert (N : forall p n a, lins (sv_cap s) l p n (AVal a) = None -> 0 <= n -> ~ (0 <= p <= slen l /\ slen l + n <= sv_cap s)).
    { intros p n a E' Hn' (B1 & B2). unfold lins in E'. replace ((0 <=? p) && (p <=? slen l) && (0 <=? n) && (slen l + n <=? sv_cap s)) with true in E' by lia.
      destruct (n =? 0); discriminate. }
    assert (EL : forall i, lelem l i = None -> 0 <= i -> slen l <= i).
    { intros i E' H0. unfold lelem in E'. cbn [sval] in E'. replace (i <? 0) with false in E' by lia.
      destruct (nth_error l (Z.to_nat i)) eqn:En; [discriminate|]. apply nth_error_None in En. unfold slen. lia. }
    assert (RZ : forall n a, 0 <= n -> lresize (sv_cap s) l n (AVal a) = None -> sv_resize s n (AVal a) = UB).
    { intros n a Hn0 E'. unfold lresize in E'. destruct ((0 <=? n) && (n <=? slen l)) eqn:En; [discriminate|].
      unfold sv_resize, assert. destruct (n <=? sv_cap s) eqn:Ec; [|reflexivity]. exfalso. apply (N _ _ _ E'); lia. }
    destruct o as [n x|v|p x|p n x|p v|p x|x|x|p|p q| | |n|n x|i|i| | | | | | |n]; cbn [slstep sstep args_ok iters_ok no_alias] in *.
    - destruct x as [a|]; [|discriminate]. destruct ((0 <=? n) && (n <=? sv_cap s)) eqn:En; [discriminate|].
      unfold ret_unit, sv_assign, assert. replace (n <=? sv_cap s) with false by lia. reflexivity.
    - destruct (slen v <=? sv_cap s) eqn:Ev; [discriminate|]. unfold ret_unit, sv_assign_range.
      destruct (clear_thm s l rest R) as (r & C & D & L). rewrite C. cbn [bind].
      pose proof (append_each_bad v [] r D) as G. cbn [map app] in G. change (slen []) with 0 in G. unfold slen in Ev. rewrite G by lia. reflexivity.
    - destruct x as [a|]; [|discriminate]. destruct (lins (sv_cap s) l p 1 (AVal a)) eqn:El; [discriminate|]. unfold ret_pos.
      rewrite (insert_bad s l rest p _ R) by (try lia; apply (N _ _ _ El); lia). reflexivity.
    - destruct x as [a|]; [|discriminate]. destruct (lins (sv_cap s) l p n (AVal a)) eqn:El; [discriminate|]. unfold ret_pos.
      pose proof (N _ _ _ El ltac:(lia)) as B. unfold sv_insert_n, assert. rewrite H2.
      destruct ((slen l + n) mod 2 ^ 64 <=? sv_cap s) eqn:Em; [|reflexivity].
      assert (D : 0 <= p <= slen l \/ ~ (0 <= p <= slen l)) by lia. destruct D as [D|D].
      + rewrite (sid_ok s l rest p R D). cbn [bind]. unfold sv_move.
        assert (Bg : sv_cap s < slen l + n) by lia.
        replace ((0 <=? p + n) && (0 <=? p) && (0 <=? slen l - p) && (p + n + (slen l - p) <=? sv_cap s) && (p + (slen l - p) <=? sv_cap s)) with false by lia.
        reflexivity.
      + rewrite (sid_bad s l rest p R) by lia. reflexivity.
    - destruct ((0 <=? p) && (p <=? slen l) && (slen l + slen v <=? sv_cap s)) eqn:Eg; [discriminate|]. unfold ret_pos, sv_insert_range.
      assert (D : 0 <= p <= slen l \/ ~ (0 <= p <= slen l)) by lia. destruct D as [D|D].
      + rewrite (sid_ok s l rest p R D). cbn [bind]. rewrite (insert_each_bad v s l rest p R D) by lia. reflexivity.
      + rewrite (sid_bad s l rest p R) by lia. reflexivity.
    - destruct x as [a|]; [|discriminate]. destruct (lins (sv_cap s) l p 1 (AVal a)) eqn:El; [discriminate|]. unfold ret_pos.
      rewrite (insert_bad s l rest p _ R) by (try lia; apply (N _ _ _ El); lia). reflexivity.
    - destruct x as [a|]; [|discriminate]. cbn [sval] in E. destruct (lins (sv_cap s) l (slen l) 1 (AVal a)) eqn:El; [discriminate|].
      rewrite H2. rewrite (insert_bad s l rest (slen l) _ R) by (try lia; apply (N _ _ _ El); lia). reflexivity.
    - destruct x as [a|]; [|discriminate]. destruct (lins (sv_cap s) l (slen l) 1 (AVal a)) eqn:El; [discriminate|].
      rewrite H2. rewrite (insert_bad s l rest (slen l) _ R) by (try lia; apply (N _ _ _ El); lia). reflexivity.
    - unfold ret_pos, sv_erase. assert (D : 0 <= p <= slen l \/ ~ (0 <= p <= slen l)) by lia. destruct D as [D|D].
      + rewrite (sid_ok s l rest p R D). cbn [bind]. unfold sv_destruct, assert. rewrite H2. destruct (p <? slen l) eqn:Ep.
        * unfold lera in E. replace ((0 <=? p) && (p <=? p + 1) && (p + 1 <=? slen l)) with true in E by lia. discriminate.
        * rewrite Bool.andb_false_r. reflexivity.
      + rewrite (sid_bad s l rest p R) by lia. reflexivity.
    - unfold ret_pos, sv_erase_range. assert (D : 0 <= p <= slen l \/ ~ (0 <= p <= slen l)) by lia. destruct D as [D|D].
      + rewrite (sid_ok s l rest p R D). cbn [bind]. assert (D2 : 0 <= q <= slen l \/ ~ (0 <= q <= slen l)) by lia. destruct D2 as [D2|D2].
        * rewrite (sid_ok s l rest q R D2). cbn [bind]. unfold assert. destruct (p <=? q) eqn:Ep; [|reflexivity].
          unfold lera in E. replace ((0 <=? p) && (p <=? q) && (q <=? slen l)) with true in E by lia. discriminate.
        * rewrite (sid_bad s l rest q R) by lia. reflexivity.
      + rewrite (sid_bad s l rest p R) by lia. reflexivity.
    - destruct l as [|a l]; [|discriminate]. unfold sv_erase. rewrite H2. rewrite (sid_bad s [] rest _ R); [reflexivity| |]; change (slen []) with 0; lia.
    - discriminate.
    - destruct (lresize (sv_cap s) l n (AVal dflt)) eqn:El; [discriminate|]. unfold ret_unit. rewrite RZ by (auto; lia). reflexivity.
    - destruct x as [a|]; [|discriminate]. destruct (lresize (sv_cap s) l n (AVal a)) eqn:El; [discriminate|]. unfold ret_unit. rewrite RZ by (auto; lia). reflexivity.
    - apply EL in E; [|lia]. unfold ret_elem, sv_at, assert. rewrite H2. replace (i <? slen l) with false by lia. reflexivity.
    - exfalso. apply (Hg i). reflexivity.
    - apply EL in E; [|lia]. unfold ret_elem, sv_front, assert. rewrite H2. replace (0 <? slen l) with false by lia. reflexivity.
    - unfold ret_elem, sv_back, assert. rewrite H2. destruct (0 <? slen l) eqn:E0; [|reflexivity]. apply EL in E; lia.
    - discriminate.
    - discriminate.
    - discriminate.
    - discriminate.
    - destruct (n <=? sv_cap s) eqn:En; [discriminate|]. reflexivity.
  Qed.
End Theorems.

(** Placement of the elements. *)
Theorem element_aligned base sizeof_t alignof_t i : (sv_alignof | base) -> (alignof_t | 8) -> (alignof_t | sizeof_t) ->
  (alignof_t | sv_element_address base sizeof_t i).
Proof.
  intros H1 H2 H3. unfold sv_element_address, sv_alignof in *. apply Z.divide_add_r; [apply Z.divide_add_r|].
  - apply (Z.divide_trans _ 8); auto.
  - auto.
  - apply Z.divide_mul_r. auto.
Qed.
