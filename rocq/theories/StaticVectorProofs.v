(** Abstract lists for static_vector, and the refinement proof. *)
From Verif Require Import Base BaseLemmas Slots StaticVector.

(** ** Specification: what the calls do on a list
    [None] as a result: the call is not allowed. *)
Section Spec.
  Context {A : Type} (dflt : A).
  Implicit Types (l : list A).

  Definition slen l : Z := Z.of_nat (length l).
  (** The value of an argument at the time of the call. *)
  Definition sval l (x : arg A) : option A :=
    match x with
    | AVal a => Some a
    | ARef i => if i <? 0 then None else nth_error l (Z.to_nat i)
    end.
  Definition linsert l (p : Z) (v : list A) : list A := firstn (Z.to_nat p) l ++ v ++ skipn (Z.to_nat p) l.
  Definition lerase l (p q : Z) : list A := firstn (Z.to_nat p) l ++ skipn (Z.to_nat q) l.

  (** Insert [n] copies of the argument at position [p]. *)
  Definition lins (cap : Z) l (p n : Z) (x : arg A) : option (list A) :=
    if (0 <=? p) && (p <=? slen l) && (0 <=? n) && (slen l + n <=? cap) then
      if n =? 0 then Some l
      else match sval l x with Some a => Some (linsert l p (repeat a (Z.to_nat n))) | None => None end
    else None.
  Definition lera l (p q : Z) : option (list A) :=
    if (0 <=? p) && (p <=? q) && (q <=? slen l) then Some (lerase l p q) else None.
  Definition lresize (cap : Z) l (n : Z) (x : arg A) : option (list A) :=
    if (0 <=? n) && (n <=? slen l) then Some (firstn (Z.to_nat n) l) else lins cap l (slen l) (n - slen l) x.
  Definition lelem l (i : Z) : option (sret A * list A) :=
    match sval l (ARef i) with Some a => Some (SElem a, l) | None => None end.

  Definition slstep (cap : Z) l (o : sop A) : option (sret A * list A) :=
    match o with
    | SAssign n x => match x with
                     | AVal a => if (0 <=? n) && (n <=? cap) then Some (SUnit, repeat a (Z.to_nat n)) else None
                     | ARef _ => None   (* not allowed, as for std::vector *)
                     end
    | SAssignRange v => if slen v <=? cap then Some (SUnit, v) else None
    | SInsert p x | SEmplace p x => option_map (pair (SPos p)) (lins cap l p 1 x)
    | SInsertN p n x => option_map (pair (SPos p)) (lins cap l p n x)
    | SInsertRange p v => if (0 <=? p) && (p <=? slen l) && (slen l + slen v <=? cap)
                          then Some (SPos p, linsert l p v) else None
    | SEmplaceBack x => match sval l x with
                        | Some a => option_map (pair (SElem a)) (lins cap l (slen l) 1 x)
                        | None => None
                        end
    | SPush x => option_map (pair SUnit) (lins cap l (slen l) 1 x)
    | SErase p => option_map (pair (SPos p)) (if p <? slen l then lera l p (p + 1) else None)
    | SEraseRange p q => option_map (pair (SPos p)) (lera l p q)
    | SPop => match l with [] => None | _ => Some (SUnit, removelast l) end
    | SClear => Some (SUnit, [])
    | SResize n => option_map (pair SUnit) (lresize cap l n (AVal dflt))
    | SResizeVal n x => option_map (pair SUnit) (lresize cap l n x)
    | SAt i | SGet i => lelem l i
    | SFront => lelem l 0
    | SBack => lelem l (slen l - 1)
    | SEmpty => Some (SBool (match l with [] => true | _ => false end), l)
    | SSize => Some (SNum (slen l), l)
    | SMaxSize | SCapacity => Some (SNum cap, l)
    | SReserve n => if n <=? cap then Some (SUnit, l) else None
    end.

  Fixpoint slruns (cap : Z) l (ops : list (sop A)) : option (list (sret A) * list A) :=
    match ops with
    | [] => Some ([], l)
    | o :: ops' => match slstep cap l o with
                   | Some (r, l') => match slruns cap l' ops' with Some (rs, l'') => Some (r :: rs, l'') | None => None end
                   | None => None
                   end
    end.

  (** The argument of an insertion does not refer to an element of the vector which the
      insertion moves into another slot, or beyond. *)
  Definition alias_ok (o : sop A) : bool :=
    match o with
    | SInsert p (ARef i) | SEmplace p (ARef i) => i <? p + 1
    | SInsertN p n (ARef i) => i <? p + n
    | _ => true
    end.
  (** Sizes are 64 bit unsigned numbers. *)
  Definition args_ok (o : sop A) : bool :=
    match o with
    | SAssign n _ | SResize n | SResizeVal n _ | SInsertN _ n _ | SReserve n => (0 <=? n) && (n <? 2 ^ 64)
    | SAt i | SGet i => (0 <=? i) && (i <? 2 ^ 64)
    | _ => true
    end.

  (** The vector holds exactly the list [l], no object exists in any other slot, and no
      object was lost. *)
  Definition sholds (s : svec A) l : Prop :=
    sv_cap s < 2 ^ 63 /\ sv_size s = slen l /\ slen l <= sv_cap s /\ sv_lost s = 0%nat /\
    (forall i, (i < length l)%nat -> exists a, nth_error l i = Some a /\ nth_error (sv_mem s) i = Some (SVal a)) /\
    (forall i a, (length l <= i)%nat -> nth_error (sv_mem s) i <> Some (SVal a)).
End Spec.

Section Proof.
  Context {A : Type}.
  Implicit Types (l v : list A) (rest : list (scell A)).
  Notation vals := (map (@SVal A)).
  Notation dead := (Forall (fun c : scell A => live c = false)).

  Definition srel (s : svec A) l rest : Prop :=
    sv_cap s < 2 ^ 63 /\ sv_size s = slen l /\ sv_mem s = vals l ++ rest /\ sv_lost s = 0%nat /\ dead rest.

  Lemma srel_cap s l rest : srel s l rest -> sv_cap s = slen l + Z.of_nat (length rest).
  Proof. intros (_ & _ & H & _). unfold sv_cap, slen. rewrite H, app_length, map_length. lia. Qed.

  Lemma list_ext {B} (x y : list B) : (forall i, nth_error x i = nth_error y i) -> x = y.
  Proof.
    revert y. induction x as [|a x IH]; intros [|b y] H; try reflexivity.
    - specialize (H 0%nat). discriminate.
    - specialize (H 0%nat). discriminate.
    - pose proof (H 0%nat) as H0. cbn in H0. injection H0 as ->. f_equal. apply IH. intros i. exact (H (S i)).
  Qed.

  Lemma sholds_srel s l : sholds s l -> exists rest, srel s l rest.
  Proof.
    intros (H1 & H2 & H3 & H4 & H5 & H6). exists (skipn (length l) (sv_mem s)). unfold srel.
    split; [auto|]. split; [auto|]. unfold sv_cap, slen in H3. split; [|split; [auto|]].
    - rewrite <- (firstn_skipn (length l) (sv_mem s)) at 1. f_equal. apply list_ext. intros i.
      rewrite nth_error_map. destruct (Nat.lt_ge_cases i (length l)) as [Hi|Hi].
      + destruct (H5 i Hi) as (a & Ha & Hm). rewrite Ha. cbn.
        rewrite <- Hm. rewrite <- (firstn_skipn (length l) (sv_mem s)) at 2.
        symmetry. apply nth_error_app1. rewrite firstn_length. lia.
      + replace (nth_error l i) with (@None A) by (symmetry; apply nth_error_None; lia). cbn.
        apply nth_error_None. rewrite firstn_length. lia.
    - apply Forall_forall. intros c Hc. apply In_nth_error in Hc. destruct Hc as (i & Hi).
      destruct c as [|a|a]; try reflexivity. exfalso. apply (H6 (length l + i)%nat a); [lia|].
      rewrite <- Hi. rewrite <- (firstn_skipn (length l) (sv_mem s)) at 1.
      rewrite nth_error_app2; rewrite firstn_length; [|lia]. f_equal. lia.
  Qed.
  Lemma srel_sholds s l rest : srel s l rest -> sholds s l.
  Proof.
    intros H. pose proof (srel_cap _ _ _ H) as Hc. destruct H as (H1 & H2 & H3 & H4 & H5). unfold sholds.
    split; [auto|]. split; [auto|]. split; [lia|]. split; [auto|]. rewrite H3. split.
    - intros i Hi. destruct (nth_error l i) as [a|] eqn:Ea; [|apply nth_error_None in Ea; lia]. exists a. split; [reflexivity|].
      rewrite nth_error_app1 by (rewrite map_length; auto). rewrite nth_error_map, Ea. reflexivity.
    - intros i a Hi E. rewrite nth_error_app2 in E by (rewrite map_length; auto). apply nth_error_In in E.
      rewrite Forall_forall in H5. specialize (H5 _ E). discriminate.
  Qed.

  (** *** Basic steps on a split memory *)
  Lemma upd_split {B} (m1 : list B) c m2 x : upd (m1 ++ c :: m2) (length m1) x = m1 ++ x :: m2.
  Proof. induction m1 as [|y m1 IH]; cbn [app upd length]; [reflexivity|]. f_equal. exact IH. Qed.
  Lemma nth_split_mid {B} (m1 : list B) c m2 : nth_error (m1 ++ c :: m2) (length m1) = Some c.
  Proof. rewrite nth_error_app2, Nat.sub_diag by lia. reflexivity. Qed.

  Lemma construct_at n (m1 : list (scell A)) c m2 x a :
    live c = false -> sv_arg (m1 ++ c :: m2) x = Ret a ->
    sv_construct (mkS n (m1 ++ c :: m2) 0) (Z.of_nat (length m1)) x = Ret (mkS n (m1 ++ SVal a :: m2) 0).
  Proof.
    intros Hc Hx. unfold sv_construct, sv_cap, assert. cbn [sv_mem sv_size sv_lost]. rewrite app_length. cbn [length].
    replace ((0 <=? Z.of_nat (length m1)) && (Z.of_nat (length m1) <? Z.of_nat (length m1 + S (length m2)))) with true by lia.
    rewrite Hx. cbn [bind]. rewrite Nat2Z.id, nth_split_mid, upd_split, Hc. reflexivity.
  Qed.

  (** The loop of constructions over dead slots; the argument must read as [a] from the
      start and keep reading as [a]. *)
  Lemma construct_loop' n k : forall (m1 : list (scell A)) junk m2 x a, length junk = k -> dead junk ->
    (forall j done, (j < k)%nat -> done = firstn j junk -> sv_arg (m1 ++ vals (repeat a j) ++ skipn j junk ++ m2) x = Ret a) ->
    sv_loop (fun s i => sv_construct s i x) (mkS n (m1 ++ junk ++ m2) 0) (Z.of_nat (length m1)) k =
      Ret (mkS n (m1 ++ vals (repeat a k) ++ m2) 0).
  Proof.
    induction k as [|k IH]; intros m1 junk m2 x a Hl Hd Hx; cbn [sv_loop].
    - destruct junk; [reflexivity|discriminate].
    - destruct junk as [|c junk]; [discriminate|]. cbn [length] in Hl. inversion Hd as [|? ? Hc Hd']; subst.
      cbn [app]. pose proof (Hx 0%nat [] ltac:(lia) eq_refl) as Hx0. cbn [repeat map app skipn] in Hx0.
      rewrite (construct_at n m1 c (junk ++ m2) x a Hc Hx0). cbn [bind].
      replace (m1 ++ SVal a :: junk ++ m2) with ((m1 ++ [SVal a]) ++ junk ++ m2) by (rewrite <- app_assoc; reflexivity).
      replace (Z.of_nat (length m1) + 1) with (Z.of_nat (length (m1 ++ [SVal a]))) by (rewrite app_length; cbn [length]; lia).
      rewrite (IH (m1 ++ [SVal a]) junk m2 x a).
      + cbn [repeat map]. rewrite <- app_assoc. reflexivity.
      + lia.
      + exact Hd'.
      + intros j done Hj _. specialize (Hx (S j) (firstn (S j) (c :: junk)) ltac:(lia) eq_refl).
        cbn [repeat map skipn] in Hx. rewrite <- app_assoc. exact Hx.
  Qed.

  Lemma destruct_at n (m1 : list (scell A)) a m2 : Z.of_nat (length m1) < n ->
    sv_destruct (mkS n (m1 ++ SVal a :: m2) 0) (Z.of_nat (length m1)) = Ret (mkS n (m1 ++ SRaw :: m2) 0).
  Proof.
    intros H. unfold sv_destruct, assert. cbn [sv_mem sv_size sv_lost].
    replace ((0 <=? Z.of_nat (length m1)) && (Z.of_nat (length m1) <? n)) with true by lia.
    rewrite Nat2Z.id, nth_split_mid, upd_split. reflexivity.
  Qed.
  Lemma destruct_loop' n v : forall (m1 : list (scell A)) m2, Z.of_nat (length m1) + slen v <= n ->
    sv_loop sv_destruct (mkS n (m1 ++ vals v ++ m2) 0) (Z.of_nat (length m1)) (length v) =
      Ret (mkS n (m1 ++ repeat SRaw (length v) ++ m2) 0).
  Proof.
    induction v as [|a v IH]; intros m1 m2 H; cbn [length sv_loop map repeat app]; [reflexivity|].
    unfold slen in H. cbn [length] in H. rewrite destruct_at by lia. cbn [bind].
    replace (m1 ++ SRaw :: vals v ++ m2) with ((m1 ++ [SRaw]) ++ vals v ++ m2) by (rewrite <- app_assoc; reflexivity).
    replace (Z.of_nat (length m1) + 1) with (Z.of_nat (length (m1 ++ [@SRaw A]))) by (rewrite app_length; cbn [length]; lia).
    rewrite IH by (unfold slen; rewrite app_length; cbn [length]; lia). rewrite <- app_assoc. reflexivity.
  Qed.

  Lemma dead_live m : dead m -> live_count m = 0%nat.
  Proof. unfold live_count. induction 1 as [|c m Hc _ IH]; cbn [filter]; [reflexivity|]. rewrite Hc. exact IH. Qed.
  Lemma dead_repeat k : dead (repeat SRaw k).
  Proof. induction k; cbn; constructor; auto. Qed.
  Lemma dead_ghost v : dead (map ghost (vals v)).
  Proof. induction v; cbn; constructor; auto. Qed.
  Lemma dead_firstn k m : dead m -> dead (firstn k m).
  Proof. revert k. induction m as [|c m IH]; intros [|k] H; cbn; auto. inversion H; subst. constructor; auto. Qed.
  Lemma dead_skipn k m : dead m -> dead (skipn k m).
  Proof. revert k. induction m as [|c m IH]; intros [|k] H; cbn; auto. inversion H; subst. auto. Qed.

  Lemma firstn_len {B} (x y : list B) : firstn (length x) (x ++ y) = x.
  Proof. rewrite firstn_app, Nat.sub_diag, firstn_all. cbn. apply app_nil_r. Qed.
  Lemma skipn_len {B} (x y : list B) : skipn (length x) (x ++ y) = y.
  Proof. rewrite skipn_app, Nat.sub_diag, skipn_all. reflexivity. Qed.

  Lemma firstn_vals v rest : firstn (length v) (vals v ++ rest) = vals v.
  Proof. rewrite <- (map_length (@SVal A) v). apply firstn_len. Qed.

  (** Moving the objects [v] up by [k] dead slots. *)
  Lemma move_up n (m1 : list (scell A)) v rest (k : nat) : (k <= length rest)%nat -> dead rest ->
    sv_move (mkS n (m1 ++ vals v ++ rest) 0) (Z.of_nat (length m1) + Z.of_nat k) (Z.of_nat (length m1)) (slen v) =
      Ret (mkS n (m1 ++ firstn k (map ghost (vals v) ++ rest) ++ vals v ++ skipn k rest) 0).
  Proof.
    intros Hk Hd. unfold sv_move, sv_cap, slen. cbn [sv_mem sv_size sv_lost]. rewrite !app_length, map_length.
    match goal with |- (if ?b then _ else _) = _ => replace b with true by lia end. cbv zeta.
    rewrite !Nat2Z.id. replace (Z.to_nat (Z.of_nat (length m1) + Z.of_nat k)) with (length m1 + k)%nat by lia.
    rewrite firstn_len, skipn_len.
    replace (firstn (length v) (vals v ++ rest)) with (vals v) by (symmetry; apply firstn_vals).
    replace (skipn (length m1 + length v) (m1 ++ vals v ++ rest)) with rest.
    2:{ rewrite skipn_app. rewrite skipn_all2 by lia. cbn [app].
        replace (length m1 + length v - length m1)%nat with (length (vals v)) by (rewrite map_length; lia).
        rewrite skipn_len. reflexivity. }
    set (J := map ghost (vals v) ++ rest).
    assert (HJ : length J = (length v + length rest)%nat) by (unfold J; rewrite app_length, !map_length; lia).
    assert (DJ : dead J) by (apply Forall_app; split; [apply dead_ghost|auto]).
    assert (E1 : firstn (length m1 + k) (m1 ++ J) = m1 ++ firstn k J).
    { rewrite firstn_app. rewrite (firstn_all2 m1) by lia. f_equal. f_equal. lia. }
    assert (E2 : skipn (length m1 + k) (m1 ++ J) = skipn k J).
    { rewrite skipn_app. rewrite (skipn_all2 m1) by lia. cbn [app]. f_equal. lia. }
    assert (E3 : skipn (length m1 + k + length v) (m1 ++ J) = skipn k rest).
    { rewrite skipn_app. rewrite (skipn_all2 m1) by lia. cbn [app]. unfold J. rewrite skipn_app.
      rewrite (skipn_all2 (map ghost (vals v))) by (rewrite !map_length; lia). cbn [app]. f_equal. rewrite !map_length. lia. }
    rewrite E1, E2, E3.
    rewrite dead_live by (apply dead_firstn, dead_skipn; auto). rewrite <- !app_assoc. reflexivity.
  Qed.

  (** Moving the objects [v] down over [gap] dead slots. *)
  Lemma move_down n (m1 : list (scell A)) gap v rest : dead gap -> dead rest ->
    exists rest', dead rest' /\ length rest' = (length gap + length rest)%nat /\
    sv_move (mkS n (m1 ++ gap ++ vals v ++ rest) 0) (Z.of_nat (length m1)) (Z.of_nat (length m1 + length gap)) (slen v) =
      Ret (mkS n (m1 ++ vals v ++ rest') 0).
  Proof.
    intros Hg Hr. set (J := gap ++ map ghost (vals v) ++ rest).
    assert (HJ : length J = (length gap + length v + length rest)%nat) by (unfold J; rewrite !app_length, !map_length; lia).
    assert (DJ : dead J) by (unfold J; apply Forall_app; split; [auto|]; apply Forall_app; split; [apply dead_ghost|auto]).
    exists (skipn (length v) J). split; [apply dead_skipn; auto|]. split; [rewrite skipn_length; lia|].
    unfold sv_move, sv_cap, slen. cbn [sv_mem sv_size sv_lost]. rewrite !app_length, map_length.
    match goal with |- (if ?b then _ else _) = _ => replace b with true by lia end. cbv zeta.
    rewrite !Nat2Z.id.
    assert (E1 : skipn (length m1 + length gap) (m1 ++ gap ++ vals v ++ rest) = vals v ++ rest).
    { rewrite app_assoc, <- app_length. apply skipn_len. }
    rewrite E1. replace (firstn (length v) (vals v ++ rest)) with (vals v) by (symmetry; apply firstn_vals).
    assert (E2 : firstn (length m1 + length gap) (m1 ++ gap ++ vals v ++ rest) = m1 ++ gap).
    { rewrite app_assoc, <- app_length. apply firstn_len. }
    rewrite E2.
    assert (E3 : skipn (length m1 + length gap + length v) (m1 ++ gap ++ vals v ++ rest) = rest).
    { rewrite !app_assoc. rewrite <- (map_length (@SVal A) v), <- !app_length. apply skipn_len. }
    rewrite E3. replace ((m1 ++ gap) ++ map ghost (vals v) ++ rest) with (m1 ++ J) by (unfold J; rewrite <- app_assoc; reflexivity).
    rewrite firstn_len, skipn_len. rewrite skipn_app, skipn_all2 by lia. cbn [app].
    replace (length m1 + length v - length m1)%nat with (length v) by lia.
    rewrite dead_live by (apply dead_firstn; auto). reflexivity.
  Qed.

  (** *** The calls *)
  Lemma sid_ok s l rest p : srel s l rest -> 0 <= p <= slen l -> sv_id s p = Ret p.
  Proof.
    intros H Hp. pose proof (srel_cap _ _ _ H) as Hc. destruct H as (H1 & H2 & _). unfold sv_id, assert.
    rewrite (Z.mod_small p (2 ^ 64)) by lia. rewrite H2. replace (p <=? slen l) with true by lia. reflexivity.
  Qed.

  Lemma srel_eta s l rest : srel s l rest -> s = mkS (slen l) (vals l ++ rest) 0.
  Proof. intros (_ & H2 & H3 & H4 & _). destruct s; cbn in *; congruence. Qed.
  Lemma srel_intro l rest n : n = slen l -> slen l + Z.of_nat (length rest) < 2 ^ 63 -> dead rest -> srel (mkS n (vals l ++ rest) 0) l rest.
  Proof.
    intros -> Hc Hd. unfold srel, sv_cap. cbn [sv_mem sv_size sv_lost]. rewrite app_length, map_length. unfold slen in *.
    split; [lia|]. auto.
  Qed.

  (** The insertion, common to insert, emplace and the counted insert. *)
  Lemma insert_core l rest p (k : nat) x a : dead rest -> 0 <= p <= slen l -> (k <= length rest)%nat ->
    sval l x = Some a -> (forall i, x = ARef i -> i < p + Z.of_nat k) ->
    (let* s1 := sv_move (mkS (slen l) (vals l ++ rest) 0) (p + Z.of_nat k) p (slen l - p) in
     sv_loop (fun s i => sv_construct s i x) s1 p k) =
    Ret (mkS (slen l) (vals (linsert l p (repeat a k)) ++ skipn k rest) 0).
  Proof.
    intros Hd Hp Hk Hx Hal. set (q := Z.to_nat p). set (l1 := firstn q l). set (l2 := skipn q l).
    assert (El : l = l1 ++ l2) by (symmetry; apply firstn_skipn).
    assert (L1 : length l1 = q) by (unfold l1; rewrite firstn_length; unfold slen in Hp; lia).
    assert (Pq : p = Z.of_nat q) by lia.
    assert (L2 : slen l - p = slen l2) by (unfold slen; rewrite El, app_length, L1; lia).
    rewrite L2. rewrite El at 2. rewrite map_app, <- app_assoc.
    assert (Pq' : p = Z.of_nat (length (vals l1))) by (rewrite map_length; lia). rewrite Pq'.
    rewrite (move_up (slen l) (vals l1) l2 rest k Hk Hd). cbn [bind].
    rewrite (construct_loop' (slen l) k (vals l1) _ _ x a).
    - f_equal. f_equal. unfold linsert. fold q. rewrite <- Pq'. fold q. fold l1. fold l2. rewrite !map_app, <- !app_assoc. reflexivity.
    - rewrite firstn_length, app_length, !map_length. lia.
    - apply dead_firstn. apply Forall_app. split; [apply dead_ghost|auto].
    - intros j done Hj _. destruct x as [b|i]; cbn [sval sv_arg] in *; [congruence|].
      destruct (i <? 0) eqn:Ei; [discriminate|]. specialize (Hal i eq_refl). unfold sv_read. rewrite Ei.
      assert (Hi : (Z.to_nat i < length l)%nat) by (apply nth_error_Some; congruence).
      destruct (Nat.lt_ge_cases (Z.to_nat i) q) as [C|C].
      + rewrite nth_error_app1 by (rewrite map_length; lia). rewrite nth_error_map.
        rewrite El, nth_error_app1 in Hx by lia. rewrite Hx. reflexivity.
      + rewrite nth_error_app2 by (rewrite map_length; lia). rewrite map_length, L1.
        rewrite El, nth_error_app2, L1 in Hx by lia. set (o := (Z.to_nat i - q)%nat) in *.
        assert (Ho : (o < k)%nat) by (unfold o; lia).
        assert (Ho2 : (o < length l2)%nat) by (apply nth_error_Some; congruence).
        destruct (Nat.lt_ge_cases o j) as [D|D].
        * rewrite nth_error_app1 by (rewrite map_length, repeat_length; lia). rewrite nth_error_map, nth_error_repeat by lia. reflexivity.
        * rewrite nth_error_app2 by (rewrite map_length, repeat_length; lia). rewrite map_length, repeat_length.
          set (J := map ghost (vals l2) ++ rest).
          assert (NJ : nth_error (firstn k J) o = Some (SOld a)).
          { assert (X : nth_error J o = Some (SOld a)).
            { unfold J. rewrite nth_error_app1 by (rewrite !map_length; lia). rewrite !nth_error_map, Hx. reflexivity. }
            rewrite <- (firstn_skipn k J) in X. rewrite nth_error_app1 in X; [exact X|].
            rewrite firstn_length. unfold J. rewrite app_length, !map_length. lia. }
          rewrite nth_error_app1.
          -- rewrite <- (firstn_skipn j (firstn k J)) in NJ. rewrite nth_error_app2 in NJ by (rewrite firstn_length; lia).
             rewrite firstn_length in NJ. replace (o - Nat.min j (length (firstn k J)))%nat with (o - j)%nat in NJ; [rewrite NJ; reflexivity|].
             assert (length (firstn k J) = k) by (rewrite firstn_length; unfold J; rewrite app_length, !map_length; lia). lia.
          -- rewrite skipn_length, firstn_length. unfold J. rewrite app_length, !map_length. lia.
  Qed.

  Lemma slen_linsert l p v : 0 <= p <= slen l -> slen (linsert l p v) = slen l + slen v.
  Proof. unfold slen, linsert. intros H. rewrite !app_length, firstn_length, skipn_length. lia. Qed.

  Lemma slen_repeat (a : A) (k : nat) : slen (repeat a k) = Z.of_nat k.
  Proof. unfold slen. rewrite repeat_length. reflexivity. Qed.

  Lemma insert_n_thm s l rest p n x l' : srel s l rest -> 0 <= n ->
    lins (sv_cap s) l p n x = Some l' -> (forall i, x = ARef i -> i < p + n \/ n = 0) ->
    exists rest', sv_insert_n s p n x = Ret (p, mkS (slen l') (vals l' ++ rest') 0) /\
                  srel (mkS (slen l') (vals l' ++ rest') 0) l' rest' /\ slen l' + Z.of_nat (length rest') = sv_cap s.
  Proof.
    intros H Hn Hl Hal. pose proof (srel_cap _ _ _ H) as Hc. unfold lins in Hl.
    destruct ((0 <=? p) && (p <=? slen l) && (0 <=? n) && (slen l + n <=? sv_cap s)) eqn:Eg; [|discriminate].
    assert (Hp : 0 <= p <= slen l) by lia. assert (Hs : slen l + n <= sv_cap s) by lia. clear Eg.
    pose proof H as (H1 & H2 & H3 & H4 & H5). assert (Sl : 0 <= slen l) by (unfold slen; lia).
    unfold sv_insert_n, assert. rewrite H2. rewrite (Z.mod_small (slen l + n) (2 ^ 64)) by lia.
    replace (slen l + n <=? sv_cap s) with true by lia. rewrite (sid_ok s l rest p H Hp). cbn [bind].
    pose proof (srel_eta _ _ _ H) as Eta. set (C := sv_cap s) in *. rewrite Eta. cbn [sv_size].
    set (k := Z.to_nat n). assert (Ek : n = Z.of_nat k) by lia.
    destruct (n =? 0) eqn:En.
    - (* nothing to insert: the loop does not read the argument *)
      injection Hl as <-. exists rest. assert (n = 0) by lia. replace k with 0%nat in * by lia. subst n.
      assert (M : exists rest0, sv_move (mkS (slen l) (vals l ++ rest) 0) (p + 0) p (slen l - p) = Ret (mkS (slen l) (vals l ++ rest0) 0) /\ rest0 = rest).
      { exists rest. split; [|reflexivity]. set (q := Z.to_nat p).
        pose proof (firstn_skipn q l) as El. assert (L1 : length (firstn q l) = q) by (rewrite firstn_length; unfold slen in Hp; lia).
        assert (Em : vals l ++ rest = vals (firstn q l) ++ vals (skipn q l) ++ rest) by (rewrite app_assoc, <- map_app, El; reflexivity).
        rewrite Em.
        pose proof (move_up (slen l) (vals (firstn q l)) (skipn q l) rest 0 ltac:(lia) H5) as M. rewrite map_length, L1 in M.
        replace (Z.of_nat q) with p in M by lia.
        replace (slen (skipn q l)) with (slen l - p) in M by (unfold slen; rewrite skipn_length; unfold slen in Hp; lia).
        exact M. }
      destruct M as (rest0 & M & ->). change (Z.of_nat 0) with 0. rewrite M. cbn [bind sv_loop]. unfold with_size. cbn [sv_size sv_mem sv_lost].
      rewrite Z.add_0_r. split; [reflexivity|]. split; [|lia].
      apply srel_intro; [reflexivity| |auto]. lia.
    - destruct (sval l x) as [a|] eqn:Ex; [|discriminate]. fold k in Hl. injection Hl as <-.
      pose proof (insert_core l rest p k x a H5 Hp ltac:(lia) Ex) as G.
      specialize (G ltac:(intros i Hi; destruct (Hal i Hi); lia)). rewrite <- Ek in G.
      destruct (sv_move (mkS (slen l) (vals l ++ rest) 0) (p + n) p (slen l - p)) as [s1| |]; cbn [bind] in *; [|discriminate|discriminate].
      rewrite G. cbn [bind]. unfold with_size. cbn [sv_size sv_mem sv_lost].
      assert (Sl' : slen (linsert l p (repeat a k)) = slen l + n) by (rewrite slen_linsert, slen_repeat by auto; lia).
      exists (skipn k rest). fold k. rewrite Sl'. split; [reflexivity|]. rewrite skipn_length. split; [|lia].
      apply srel_intro; [auto| |apply dead_skipn; auto]. rewrite Sl', skipn_length. lia.
  Qed.

  Lemma insert_thm s l rest p x l' : srel s l rest ->
    lins (sv_cap s) l p 1 x = Some l' -> (forall i, x = ARef i -> i < p + 1) ->
    exists rest', sv_insert s p x = Ret (p, mkS (slen l') (vals l' ++ rest') 0) /\
                  srel (mkS (slen l') (vals l' ++ rest') 0) l' rest' /\ slen l' + Z.of_nat (length rest') = sv_cap s.
  Proof.
    intros H Hl Hal.
    destruct (insert_n_thm s l rest p 1 x l' H ltac:(lia) Hl ltac:(intros i Hi; left; auto)) as (rest' & G & R).
    exists rest'. split; [|exact R]. rewrite <- G. unfold sv_insert, sv_insert_n, assert.
    pose proof H as (H1 & H2 & _). pose proof (srel_cap _ _ _ H) as Hc. assert (0 <= slen l) by (unfold slen; lia).
    rewrite H2, (Z.mod_small (slen l + 1) (2 ^ 64)) by lia.
    replace (slen l + 1 <=? sv_cap s) with (slen l <? sv_cap s) by lia.
    destruct (slen l <? sv_cap s); [|reflexivity]. destruct (sv_id s p) as [i| |]; cbn [bind]; try reflexivity.
    destruct (sv_move s (i + 1) i (slen l - i)) as [s1| |]; cbn [bind]; try reflexivity.
    change (Z.to_nat 1) with 1%nat. cbn [sv_loop]. destruct (sv_construct s1 i x) as [s2| |]; reflexivity.
  Qed.

  Lemma skipn_skipn' {B} (a b : nat) (x : list B) : skipn a (skipn b x) = skipn (b + a) x.
  Proof. revert x. induction b as [|b IH]; intros x; [reflexivity|]. destruct x; cbn [skipn Nat.add]; [destruct a; reflexivity|apply IH]. Qed.

  Lemma erase_range_thm s l rest p q l' : srel s l rest -> lera l p q = Some l' ->
    exists rest', sv_erase_range s p q = Ret (p, mkS (slen l') (vals l' ++ rest') 0) /\
                  srel (mkS (slen l') (vals l' ++ rest') 0) l' rest' /\ slen l' + Z.of_nat (length rest') = sv_cap s.
  Proof.
    intros H Hl. pose proof (srel_cap _ _ _ H) as Hc. unfold lera in Hl.
    destruct ((0 <=? p) && (p <=? q) && (q <=? slen l)) eqn:Eg; [|discriminate]. injection Hl as <-.
    assert (Hp : 0 <= p <= q) by lia. assert (Hq : q <= slen l) by lia. clear Eg.
    pose proof H as (H1 & H2 & H3 & H4 & H5). unfold sv_erase_range.
    rewrite (sid_ok s l rest p H), (sid_ok s l rest q H) by lia. cbn [bind]. unfold assert. replace (p <=? q) with true by lia.
    pose proof (srel_eta _ _ _ H) as Eta. set (C := sv_cap s) in *. rewrite Eta.
    set (i := Z.to_nat p). set (j := Z.to_nat q). set (l1 := firstn i l). set (l3 := skipn j l). set (l2 := firstn (j - i) (skipn i l)).
    unfold slen in Hq. assert (L1 : length l1 = i) by (unfold l1; rewrite firstn_length; lia).
    assert (L2 : length l2 = (j - i)%nat) by (unfold l2; rewrite firstn_length, skipn_length; lia).
    assert (L3 : length l3 = (length l - j)%nat) by (unfold l3; rewrite skipn_length; lia).
    assert (El : l = l1 ++ l2 ++ l3).
    { unfold l1, l2, l3. rewrite <- (firstn_skipn i l) at 1. f_equal. rewrite <- (firstn_skipn (j - i) (skipn i l)) at 1. f_equal.
      rewrite skipn_skipn'. f_equal. lia. }
    assert (Em : vals l ++ rest = vals l1 ++ vals l2 ++ vals l3 ++ rest) by (rewrite El, !map_app, <- !app_assoc; reflexivity).
    rewrite Em. replace (Z.to_nat (q - p)) with (length l2) by lia.
    assert (Ep : p = Z.of_nat (length (vals l1))) by (rewrite map_length; lia).
    assert (Dl : sv_loop sv_destruct (mkS (slen l) (vals l1 ++ vals l2 ++ vals l3 ++ rest) 0) p (length l2) =
      Ret (mkS (slen l) (vals l1 ++ repeat SRaw (length l2) ++ vals l3 ++ rest) 0)).
    { rewrite Ep. apply destruct_loop'. rewrite map_length. unfold slen. lia. }
    rewrite Dl. cbn [bind sv_size].
    destruct (move_down (slen l) (vals l1) (repeat SRaw (length l2)) l3 rest (dead_repeat _) H5) as (rest' & D' & Lr & M).
    rewrite map_length, repeat_length in M. rewrite repeat_length in Lr.
    replace (Z.of_nat (length l1)) with p in M by lia. replace (Z.of_nat (length l1 + length l2)) with q in M by lia.
    replace (slen l3) with (slen l - q) in M by (unfold slen; lia). rewrite M. cbn [bind]. unfold with_size. cbn [sv_size sv_mem sv_lost].
    assert (E' : lerase l p q = l1 ++ l3) by reflexivity. exists rest'.
    assert (S' : slen (lerase l p q) = slen l - (q - p)) by (rewrite E'; unfold slen; rewrite app_length; lia).
    rewrite S'. rewrite E', map_app, <- app_assoc.
    split; [reflexivity|]. split; [|rewrite Hc; unfold slen; lia].
    rewrite app_assoc, <- map_app. apply srel_intro; [rewrite <- E'; lia| |auto].
    rewrite <- E', S', Lr. unfold slen in *. lia.
  Qed.

  Lemma erase_thm s l rest p l' : srel s l rest -> p < slen l -> lera l p (p + 1) = Some l' ->
    exists rest', sv_erase s p = Ret (p, mkS (slen l') (vals l' ++ rest') 0) /\
                  srel (mkS (slen l') (vals l' ++ rest') 0) l' rest' /\ slen l' + Z.of_nat (length rest') = sv_cap s.
  Proof.
    intros H Hp Hl. destruct (erase_range_thm s l rest p (p + 1) l' H Hl) as (rest' & G & R). exists rest'. split; [|exact R].
    rewrite <- G. unfold sv_erase, sv_erase_range. unfold lera in Hl. destruct (0 <=? p) eqn:E0; [|discriminate].
    rewrite (sid_ok s l rest p H), (sid_ok s l rest (p + 1) H) by lia. cbn [bind]. unfold assert. replace (p <=? p + 1) with true by lia.
    replace (Z.to_nat (p + 1 - p)) with 1%nat by lia. cbn [sv_loop]. destruct (sv_destruct s p) as [s1| |]; cbn [bind]; try reflexivity.
    replace (sv_size s1 - p - 1) with (sv_size s1 - (p + 1)) by lia. replace (p + 1 - p) with 1 by lia. reflexivity.
  Qed.

  Lemma clear_thm s l rest : srel s l rest ->
    exists rest', sv_clear s = Ret (mkS 0 rest' 0) /\ dead rest' /\ Z.of_nat (length rest') = sv_cap s.
  Proof.
    intros H. pose proof (srel_cap _ _ _ H) as Hc. pose proof H as (H1 & H2 & H3 & H4 & H5). unfold sv_clear.
    pose proof (srel_eta _ _ _ H) as Eta. set (C := sv_cap s) in *. rewrite Eta. cbn [sv_size]. replace (Z.to_nat (slen l)) with (length l) by (unfold slen; lia).
    pose proof (destruct_loop' (slen l) l [] rest) as D. cbn [length app] in D. specialize (D ltac:(lia)).
    change (Z.of_nat 0) with 0 in D. rewrite D. cbn [bind]. unfold with_size. cbn [sv_mem sv_lost]. exists (repeat SRaw (length l) ++ rest). split; [reflexivity|].
    split; [apply Forall_app; split; [apply dead_repeat|auto]|]. rewrite app_length, repeat_length. unfold slen in Hc. lia.
  Qed.

  Lemma assign_thm s l rest n a : srel s l rest -> 0 <= n <= sv_cap s ->
    exists rest', sv_assign s n (AVal a) = Ret (mkS n (vals (repeat a (Z.to_nat n)) ++ rest') 0) /\ dead rest' /\
                  n + Z.of_nat (length rest') = sv_cap s.
  Proof.
    intros H Hn. unfold sv_assign, assert. replace (n <=? sv_cap s) with true by lia.
    destruct (clear_thm s l rest H) as (r & C & D & L). rewrite C. cbn [bind].
    set (k := Z.to_nat n). pose proof (firstn_skipn k r) as Er.
    pose proof (construct_loop' 0 k [] (firstn k r) (skipn k r) (AVal a) a) as G. cbn [app length] in G. rewrite Er in G.
    change (Z.of_nat 0) with 0 in G. rewrite G.
    - cbn [bind]. unfold with_size. cbn [sv_mem sv_lost]. exists (skipn k r). split; [reflexivity|]. split; [apply dead_skipn; auto|].
      rewrite skipn_length. lia.
    - rewrite firstn_length. lia.
    - apply dead_firstn. auto.
    - intros. reflexivity.
  Qed.

  Lemma append_each_thm v : forall l rest, dead rest -> (length v <= length rest)%nat ->
    sv_append_each (mkS (slen l) (vals l ++ rest) 0) v = Ret (mkS (slen (l ++ v)) (vals (l ++ v) ++ skipn (length v) rest) 0).
  Proof.
    induction v as [|a v IH]; intros l rest D L; cbn [sv_append_each length skipn].
    - rewrite app_nil_r. reflexivity.
    - destruct rest as [|c rest]; [cbn in L; lia|]. inversion D; subst. unfold with_size. cbn [sv_size sv_mem sv_lost].
      replace (slen l) with (Z.of_nat (length (vals l))) at 2 by (rewrite map_length; reflexivity).
      rewrite (construct_at (slen l + 1) (vals l) c rest (AVal a) a) by auto. cbn [bind].
      replace (vals l ++ SVal a :: rest) with (vals (l ++ [a]) ++ rest) by (rewrite map_app, <- app_assoc; reflexivity).
      replace (slen l + 1) with (slen (l ++ [a])) by (unfold slen; rewrite app_length; cbn [length]; lia).
      rewrite IH; [|auto|cbn in L; lia]. rewrite <- app_assoc. reflexivity.
  Qed.

  Lemma assign_range_thm s l rest v : srel s l rest -> slen v <= sv_cap s ->
    exists rest', sv_assign_range s v = Ret (mkS (slen v) (vals v ++ rest') 0) /\ dead rest' /\
                  slen v + Z.of_nat (length rest') = sv_cap s.
  Proof.
    intros H Hv. unfold sv_assign_range. destruct (clear_thm s l rest H) as (r & C & D & L). rewrite C. cbn [bind].
    pose proof (append_each_thm v [] r D) as G. cbn [map app] in G. unfold slen in Hv. specialize (G ltac:(lia)).
    change (slen []) with 0 in G. rewrite G. exists (skipn (length v) r). split; [reflexivity|]. split; [apply dead_skipn; auto|].
    unfold slen. rewrite skipn_length. lia.
  Qed.

  Lemma linsert_linsert l p a v : 0 <= p <= slen l -> linsert (linsert l p [a]) (p + 1) v = linsert l p (a :: v).
  Proof.
    intros Hp. unfold linsert. unfold slen in Hp. set (q := Z.to_nat p). replace (Z.to_nat (p + 1)) with (S q) by lia.
    assert (L : length (firstn q l ++ [a]) = S q) by (rewrite app_length, firstn_length; cbn [length]; lia).
    rewrite (app_assoc (firstn q l) [a] (skipn q l)). rewrite <- L. rewrite firstn_len, skipn_len. rewrite <- app_assoc. reflexivity.
  Qed.

  Lemma insert_each_thm v : forall s l rest p, srel s l rest -> 0 <= p <= slen l -> slen l + slen v <= sv_cap s ->
    exists rest', sv_insert_each s p v = Ret (mkS (slen (linsert l p v)) (vals (linsert l p v) ++ rest') 0) /\
                  srel (mkS (slen (linsert l p v)) (vals (linsert l p v) ++ rest') 0) (linsert l p v) rest' /\
                  slen (linsert l p v) + Z.of_nat (length rest') = sv_cap s.
  Proof.
    induction v as [|a v IH]; intros s l rest p H Hp Hc; cbn [sv_insert_each].
    - assert (E : linsert l p [] = l) by (unfold linsert; cbn [app]; apply firstn_skipn). rewrite E. exists rest.
      rewrite <- (srel_eta _ _ _ H). split; [reflexivity|]. split; [auto|]. symmetry. apply srel_cap. auto.
    - unfold slen in Hc. cbn [length] in Hc. fold (slen l) in Hc.
      assert (El : lins (sv_cap s) l p 1 (AVal a) = Some (linsert l p [a])).
      { unfold lins. cbn [sval]. replace ((0 <=? p) && (p <=? slen l) && (0 <=? 1) && (slen l + 1 <=? sv_cap s)) with true by lia. reflexivity. }
      destruct (insert_thm s l rest p (AVal a) _ H El ltac:(discriminate)) as (r1 & G & R & C1). rewrite G. cbn [bind snd].
      assert (Sl : slen (linsert l p [a]) = slen l + 1) by (rewrite slen_linsert by auto; reflexivity).
      pose proof (srel_cap _ _ _ R) as Cr.
      destruct (IH _ _ _ (p + 1) R) as (r2 & G2 & R2 & C2); [lia|rewrite Cr, C1, Sl; change (slen v) with (Z.of_nat (length v)); lia|].
      exists r2. rewrite G2. rewrite linsert_linsert in * by auto. split; [reflexivity|]. split; [auto|]. rewrite C2, Cr, C1. reflexivity.
  Qed.

  Lemma sread_val l rest i a : sval l (ARef i) = Some a -> sv_read (vals l ++ rest) i = Ret a.
  Proof.
    cbn [sval]. unfold sv_read. destruct (i <? 0); [discriminate|]. intros H.
    rewrite nth_error_app1 by (rewrite map_length; apply nth_error_Some; congruence). rewrite nth_error_map, H. reflexivity.
  Qed.

  Lemma removelast_firstn' l : removelast l = firstn (length l - 1) l.
  Proof.
    induction l as [|a l IH]; [reflexivity|]. destruct l as [|b l]; [reflexivity|].
    change (removelast (a :: b :: l)) with (a :: removelast (b :: l)). rewrite IH. cbn [length].
    replace (S (S (length l)) - 1)%nat with (S (S (length l) - 1)) by lia. reflexivity.
  Qed.

  (** *** One call *)
  Theorem sstep_thm (dflt : A) s l o r l' : sholds s l -> args_ok o = true -> alias_ok o = true ->
    slstep dflt (sv_cap s) l o = Some (r, l') ->
    exists s', sstep dflt s o = Ret (r, s') /\ sholds s' l' /\ sv_cap s' = sv_cap s.
  Proof.
    intros H0 Ha Hal Hs. destruct (sholds_srel _ _ H0) as (rest & H). pose proof (srel_cap _ _ _ H) as Hc.
    pose proof H as (H1 & H2 & H3 & H4 & H5). assert (Sl : 0 <= slen l) by (unfold slen; lia).
    (* packaging of the common shape *)
    assert (P : forall n v rest', n = slen v -> dead rest' -> slen v + Z.of_nat (length rest') = sv_cap s ->
              sholds (mkS n (vals v ++ rest') 0) v /\ sv_cap (mkS n (vals v ++ rest') 0) = sv_cap s).
    { intros n v rest' En D L. split; [apply (srel_sholds _ _ rest'), srel_intro; auto; lia|].
      unfold sv_cap at 1. cbn [sv_mem]. rewrite app_length, map_length. unfold slen in L. lia. }
    assert (Q : forall v rest', srel (mkS (slen v) (vals v ++ rest') 0) v rest' -> slen v + Z.of_nat (length rest') = sv_cap s ->
              sholds (mkS (slen v) (vals v ++ rest') 0) v /\ sv_cap (mkS (slen v) (vals v ++ rest') 0) = sv_cap s).
    { intros v rest' R L. apply P; auto. apply R. }
    assert (W : forall x, (forall i, x = ARef i -> i < slen l + 1) -> forall l1, lins (sv_cap s) l (slen l) 1 x = Some l1 ->
       exists s', sv_insert s (sv_size s) x = Ret (slen l, s') /\ s' = mkS (slen l1) (sv_mem s') 0 /\ sholds s' l1 /\ sv_cap s' = sv_cap s /\
         (forall a, sval l x = Some a -> sv_read (sv_mem s') (slen l) = Ret a)).
    { intros x Hx l1 E. destruct (insert_thm s l rest (slen l) x l1 H E Hx) as (r1 & G & R & C). rewrite H2, G. eexists. split; [reflexivity|].
      split; [reflexivity|]. destruct (Q _ _ R C) as (Q1 & Q2). split; [auto|]. split; [auto|]. intros a Ea. cbn [sv_mem]. apply sread_val. cbn [sval].
      replace (slen l <? 0) with false by lia. unfold lins in E.
      destruct ((0 <=? slen l) && (slen l <=? slen l) && (0 <=? 1) && (slen l + 1 <=? sv_cap s)); [|discriminate].
      cbn [Z.eqb] in E. rewrite Ea in E. injection E as <-. unfold linsert. change (repeat a (Z.to_nat 1)) with [a].
      rewrite nth_error_app2; rewrite firstn_length; unfold slen; [|lia]. replace (Z.to_nat (Z.of_nat (length l)) - Nat.min (Z.to_nat (Z.of_nat (length l))) (length l))%nat with 0%nat by lia. reflexivity. }
    assert (B : forall x l1, lins (sv_cap s) l (slen l) 1 x = Some l1 -> forall i, x = ARef i -> i < slen l + 1).
    { intros x l1 E i ->. unfold lins in E. destruct (_ && _) in E; [|discriminate]. cbn [Z.eqb sval] in E. destruct (i <? 0) eqn:Ei; [lia|].
      destruct (nth_error l (Z.to_nat i)) eqn:En; [|discriminate]. apply nth_error_lt in En. unfold slen. lia. }
    assert (RZ : forall n x l1, 0 <= n < 2 ^ 64 -> lresize (sv_cap s) l n x = Some l1 ->
       exists s', sv_resize s n x = Ret s' /\ sholds s' l1 /\ sv_cap s' = sv_cap s).
    { intros n x l1 Hn E. unfold lresize in E. unfold sv_resize, assert. rewrite H2. destruct ((0 <=? n) && (n <=? slen l)) eqn:En.
      - injection E as <-. replace (n <=? sv_cap s) with true by lia. destruct (n =? slen l) eqn:E1.
        + exists s. split; [reflexivity|]. split; [|reflexivity]. rewrite firstn_all2 by (unfold slen in *; lia). auto.
        + replace (n <? slen l) with true by lia.
          assert (El : lera l n (slen l) = Some (firstn (Z.to_nat n) l)).
          { unfold lera, lerase. replace ((0 <=? n) && (n <=? slen l) && (slen l <=? slen l)) with true by lia.
            rewrite skipn_all2 by (unfold slen; lia). rewrite app_nil_r. reflexivity. }
          destruct (erase_range_thm s l rest n (slen l) _ H El) as (r1 & G & R & C). rewrite G. cbn [bind snd]. eexists. split; [reflexivity|]. apply Q; auto.
      - assert (Hgt : slen l < n) by lia. pose proof E as E'. unfold lins in E'.
        destruct ((0 <=? slen l) && (slen l <=? slen l) && (0 <=? n - slen l) && (slen l + (n - slen l) <=? sv_cap s)) eqn:Eg; [|discriminate].
        replace (n <=? sv_cap s) with true by lia. replace (n =? slen l) with false by lia. replace (n <? slen l) with false by lia.
        destruct (insert_n_thm s l rest (slen l) (n - slen l) x l1 H ltac:(lia) E) as (r1 & G & R & C).
        { intros i ->. left. replace (n - slen l =? 0) with false in E' by lia. cbn [sval] in E'. destruct (i <? 0) eqn:Ei; [lia|].
          destruct (nth_error l (Z.to_nat i)) eqn:Enn; [|discriminate]. apply nth_error_lt in Enn. unfold slen in *. lia. }
        rewrite G. cbn [bind snd]. eexists. split; [reflexivity|]. apply Q; auto. }
    assert (EL : forall i a, sval l (ARef i) = Some a -> sv_read (sv_mem s) i = Ret a /\ 0 <= i < slen l).
    { intros i a E. rewrite H3. split; [apply sread_val; auto|]. cbn [sval] in E. destruct (i <? 0) eqn:Ei; [discriminate|].
      apply nth_error_lt in E. unfold slen. lia. }
    destruct o as [n x|v|p x|p n x|p v|p x|x|x|p|p q| | |n|n x|i|i| | | | | | |n]; cbn [slstep sstep args_ok] in *.
    - (* assign *) destruct x as [a|i]; [|discriminate]. destruct ((0 <=? n) && (n <=? sv_cap s)) eqn:En; [|discriminate]. injection Hs as <- <-.
      destruct (assign_thm s l rest n a H ltac:(lia)) as (r1 & G & D & L). unfold ret_unit. rewrite G. cbn [bind]. eexists. split; [reflexivity|].
      apply P; auto; rewrite slen_repeat; lia.
    - (* range assign *) destruct (slen v <=? sv_cap s) eqn:Ev; [|discriminate]. injection Hs as <- <-.
      destruct (assign_range_thm s l rest v H ltac:(lia)) as (r1 & G & D & L). unfold ret_unit. rewrite G. cbn [bind]. eexists. split; [reflexivity|]. apply P; auto.
    - (* insert *) destruct (lins (sv_cap s) l p 1 x) as [l1|] eqn:El; [|discriminate]. cbn [option_map] in Hs. injection Hs as <- <-.
      destruct (insert_thm s l rest p x l1 H El) as (r1 & G & R & C); [intros i ->; cbn [alias_ok] in Hal; lia|].
      unfold ret_pos. rewrite G. cbn [bind fst snd]. eexists. split; [reflexivity|]. apply Q; auto.
    - (* insert n *) destruct (lins (sv_cap s) l p n x) as [l1|] eqn:El; [|discriminate]. cbn [option_map] in Hs. injection Hs as <- <-.
      destruct (insert_n_thm s l rest p n x l1 H ltac:(lia) El) as (r1 & G & R & C); [intros i ->; cbn [alias_ok] in Hal; lia|].
      unfold ret_pos. rewrite G. cbn [bind fst snd]. eexists. split; [reflexivity|]. apply Q; auto.
    - (* range insert *) destruct ((0 <=? p) && (p <=? slen l) && (slen l + slen v <=? sv_cap s)) eqn:Eg; [|discriminate]. injection Hs as <- <-.
      unfold ret_pos, sv_insert_range. rewrite (sid_ok s l rest p H) by lia. cbn [bind].
      destruct (insert_each_thm v s l rest p H ltac:(lia) ltac:(lia)) as (r1 & G & R & C). rewrite G. cbn [bind fst snd]. eexists. split; [reflexivity|]. apply Q; auto.
    - (* emplace *) destruct (lins (sv_cap s) l p 1 x) as [l1|] eqn:El; [|discriminate]. cbn [option_map] in Hs. injection Hs as <- <-.
      destruct (insert_thm s l rest p x l1 H El) as (r1 & G & R & C); [intros i ->; cbn [alias_ok] in Hal; lia|].
      unfold ret_pos. rewrite G. cbn [bind fst snd]. eexists. split; [reflexivity|]. apply Q; auto.
    - (* emplace_back *) destruct (sval l x) as [a|] eqn:Ex; [|discriminate].
      destruct (lins (sv_cap s) l (slen l) 1 x) as [l1|] eqn:El; [|discriminate]. cbn [option_map] in Hs. injection Hs as <- <-.
      destruct (W x (B x l1 El) l1 El) as (s' & G & _ & R & C & V). rewrite G. cbn [bind fst snd]. unfold ret_elem. rewrite (V a Ex). cbn [bind].
      exists s'. auto.
    - (* push_back *) destruct (lins (sv_cap s) l (slen l) 1 x) as [l1|] eqn:El; [|discriminate]. cbn [option_map] in Hs. injection Hs as <- <-.
      destruct (W x (B x l1 El) l1 El) as (s' & G & _ & R & C & V). rewrite G. cbn [bind fst snd]. exists s'. auto.
    - (* erase *) destruct (p <? slen l) eqn:Ep; [|discriminate]. destruct (lera l p (p + 1)) as [l1|] eqn:El; [|discriminate].
      cbn [option_map] in Hs. injection Hs as <- <-. destruct (erase_thm s l rest p l1 H ltac:(lia) El) as (r1 & G & R & C).
      unfold ret_pos. rewrite G. cbn [bind fst snd]. eexists. split; [reflexivity|]. apply Q; auto.
    - (* erase range *) destruct (lera l p q) as [l1|] eqn:El; [|discriminate].
      cbn [option_map] in Hs. injection Hs as <- <-. destruct (erase_range_thm s l rest p q l1 H El) as (r1 & G & R & C).
      unfold ret_pos. rewrite G. cbn [bind fst snd]. eexists. split; [reflexivity|]. apply Q; auto.
    - (* pop_back *) assert (Hl : l <> [] /\ r = SUnit /\ l' = removelast l) by (destruct l; [discriminate|]; injection Hs as <- <-; repeat split; discriminate).
      destruct Hl as (Hl & -> & ->). assert (Hpos : 0 < slen l) by (destruct l; [congruence|]; unfold slen; cbn [length]; lia).
      assert (El : lera l (slen l - 1) (slen l - 1 + 1) = Some (removelast l)).
      { unfold lera, lerase. replace ((0 <=? slen l - 1) && (slen l - 1 <=? slen l - 1 + 1) && (slen l - 1 + 1 <=? slen l)) with true by lia.
        rewrite skipn_all2 by (unfold slen; lia). rewrite app_nil_r, removelast_firstn'. f_equal. f_equal. unfold slen. lia. }
      destruct (erase_thm s l rest (slen l - 1) _ H ltac:(lia) El) as (r1 & G & R & C). rewrite H2, G. cbn [bind snd]. eexists. split; [reflexivity|]. apply Q; auto.
    - (* clear *) injection Hs as <- <-. destruct (clear_thm s l rest H) as (r1 & G & D & L). unfold ret_unit. rewrite G. cbn [bind]. eexists. split; [reflexivity|].
      change r1 with (vals [] ++ r1). apply P; auto.
    - (* resize *) destruct (lresize (sv_cap s) l n (AVal dflt)) as [l1|] eqn:El; [|discriminate]. cbn [option_map] in Hs. injection Hs as <- <-.
      destruct (RZ n _ l1 ltac:(lia) El) as (s' & G & R & C). unfold ret_unit. rewrite G. cbn [bind]. exists s'. auto.
    - destruct (lresize (sv_cap s) l n x) as [l1|] eqn:El; [|discriminate]. cbn [option_map] in Hs. injection Hs as <- <-.
      destruct (RZ n _ l1 ltac:(lia) El) as (s' & G & R & C). unfold ret_unit. rewrite G. cbn [bind]. exists s'. auto.
    - (* at *) unfold lelem in Hs. destruct (sval l (ARef i)) as [a|] eqn:Ea; [|discriminate]. injection Hs as <- <-.
      destruct (EL i a Ea) as (R & Hi). unfold ret_elem, sv_at, assert. rewrite H2. replace (i <? slen l) with true by lia. rewrite R. cbn [bind]. exists s. auto.
    - unfold lelem in Hs. destruct (sval l (ARef i)) as [a|] eqn:Ea; [|discriminate]. injection Hs as <- <-.
      destruct (EL i a Ea) as (R & Hi). unfold ret_elem, sv_get. rewrite R. cbn [bind]. exists s. auto.
    - unfold lelem in Hs. destruct (sval l (ARef 0)) as [a|] eqn:Ea; [|discriminate]. injection Hs as <- <-.
      destruct (EL 0 a Ea) as (R & Hi). unfold ret_elem, sv_front, assert. rewrite H2. replace (0 <? slen l) with true by lia. rewrite R. cbn [bind]. exists s. auto.
    - unfold lelem in Hs. destruct (sval l (ARef (slen l - 1))) as [a|] eqn:Ea; [|discriminate]. injection Hs as <- <-.
      destruct (EL (slen l - 1) a Ea) as (R & Hi). unfold ret_elem, sv_back, assert. rewrite H2. replace (0 <? slen l) with true by lia. rewrite R. cbn [bind]. exists s. auto.
    - injection Hs as <- <-. exists s. rewrite H2. split; [|auto]. f_equal. f_equal. f_equal. destruct l; unfold slen; cbn [length]; [reflexivity|lia].
    - injection Hs as <- <-. exists s. rewrite H2. auto.
    - injection Hs as <- <-. exists s. auto.
    - injection Hs as <- <-. exists s. auto.
    - destruct (n <=? sv_cap s) eqn:En; [|discriminate]. injection Hs as <- <-. unfold assert. exists s. auto.
  Qed.
End Proof.
