(** Abstract lists for device_vector, and the refinement proof. *)
From Verif Require Import Base BaseLemmas DeviceVector.

(** ** Specification: what the calls do on a list

    An entry is a value, or [None] for an element of indeterminate value.  [None] as
    a result: the call is not allowed. *)
Section Spec.
  Context {A : Type} (dflt : A).
  Notation elem := (option A).

  Definition lval (l : list elem) (x : arg A) : option A :=
    match x with
    | AVal a => Some a
    | ARef i => if i <? 0 then None else match nth_error l (Z.to_nat i) with Some (Some a) => Some a | _ => None end
    end.
  Definition len (l : list elem) : Z := Z.of_nat (length l).

  (** Append [n] copies of the argument. *)
  Definition lgrow (cap : Z) (l : list elem) (n : Z) (x : arg A) : option (list elem) :=
    if n =? 0 then Some l
    else if len l + n <=? cap then
      match lval l x with Some a => Some (l ++ repeat (Some a) (Z.to_nat n)) | None => None end
    else None.

  Definition lget (l : list elem) (i : Z) : option (dret A * list elem) :=
    match lval l (ARef i) with Some a => Some (RVal a, l) | None => None end.

  Definition lstep (cap : Z) (l : list elem) (o : dop A) : option (dret A * list elem) :=
    match o with
    | OClear => Some (RUnit, [])
    | OAssign n x => if 0 <=? n then option_map (pair RUnit) (lgrow cap [] n x) else None
    | OAssignRange v => if Z.of_nat (length v) <=? cap then Some (RUnit, map Some v) else None
    | OPush x => option_map (pair (RSize (len l))) (lgrow cap l 1 x)
    | OEmplace a => option_map (pair (RVal a)) (lgrow cap l 1 (AVal a))
    | OPop => match l with [] => None | _ => Some (RSize (len l - 1), removelast l) end
    | OResize n x => if n <? 0 then None else if n <=? len l then Some (RUnit, firstn (Z.to_nat n) l)
                     else option_map (pair RUnit) (lgrow cap l (n - len l) x)
    | OResizeDefault n => if n <? 0 then None else if n <=? len l then Some (RUnit, firstn (Z.to_nat n) l)
                     else option_map (pair RUnit) (lgrow cap l (n - len l) (AVal dflt))
    | OBulk n => if 0 <=? n then option_map (pair (RSize (len l))) (lgrow cap l n (AVal dflt)) else None
    | OBulkVal n x => if 0 <=? n then option_map (pair (RSize (len l))) (lgrow cap l n x) else None
    | OBulkImplicit n => if (0 <=? n) && (len l + n <=? cap) then Some (RSize (len l), l ++ repeat None (Z.to_nat n)) else None
    | OResizeImplicit n => if (0 <=? n) && (n <=? cap) then
                             Some (RUnit, firstn (Z.to_nat n) l ++ repeat None (Z.to_nat (n - len l))) else None
    | OAt i | OGet i => lget l i
    | OFront => lget l 0
    | OBack => lget l (len l - 1)
    | OSize => Some (RSize (len l), l)
    | OEmpty => Some (RBool (match l with [] => true | _ => false end), l)
    | OCapacity => Some (RSize cap, l)
    end.

  Fixpoint lruns (cap : Z) (l : list elem) (ops : list (dop A)) : option (list (dret A) * list elem) :=
    match ops with
    | [] => Some ([], l)
    | o :: ops' => match lstep cap l o with
                   | Some (r, l') => match lruns cap l' ops' with Some (rs, l'') => Some (r :: rs, l'') | None => None end
                   | None => None
                   end
    end.

  (** The vector holds the list [l]: the slots below the size hold the elements.
      [clean]: the slots at and above the size hold no object. *)
  Definition cell_of (e : elem) : cell A := match e with Some a => Val a | None => Indet end.
  Definition holds (s : dvec A) (l : list elem) : Prop :=
    d_cap s < 2 ^ 32 /\ d_size s = Some (len l) /\ Z.of_nat (length (d_mem s)) = d_cap s /\
    firstn (length l) (d_mem s) = map cell_of l.
  Definition clean (s : dvec A) : Prop :=
    forall i, dv_size s <= Z.of_nat i -> forall c, nth_error (d_mem s) i = Some c -> c = Raw.

  Definition explicit (o : dop A) : bool := match o with OResizeImplicit _ => false | _ => true end.
End Spec.

Section Proof.
  Context {A : Type} (dflt : A).
  Notation elem := (option A).
  Implicit Types (l : list elem) (rest : list (cell A)).
  Notation cells := (map (@cell_of A)).

  Lemma slot_new_at (m1 : list (cell A)) c m2 a : slot_new (m1 ++ c :: m2) (Z.of_nat (length m1)) a = Ret (m1 ++ Val a :: m2).
  Proof.
    unfold slot_new. rewrite app_length. cbn [length].
    replace ((Z.of_nat (length m1) <? 0) || (Z.of_nat (length m1 + S (length m2)) <=? Z.of_nat (length m1))) with false by lia.
    f_equal. rewrite Nat2Z.id. induction m1 as [|x m1 IH]; cbn [app upd length]; [reflexivity|]. f_equal. exact IH.
  Qed.
  Lemma upd_at {B} (m1 : list B) c m2 x : upd (m1 ++ c :: m2) (length m1) x = m1 ++ x :: m2.
  Proof. induction m1 as [|y m1 IH]; cbn [app upd length]; [reflexivity|]. f_equal. exact IH. Qed.

  Lemma slot_read_at (m1 : list (cell A)) a m2 : slot_read (m1 ++ Val a :: m2) (Z.of_nat (length m1)) = Ret a.
  Proof.
    unfold slot_read. replace (Z.of_nat (length m1) <? 0) with false by lia. rewrite Nat2Z.id.
    rewrite nth_error_app2, Nat.sub_diag by lia. reflexivity.
  Qed.

  Lemma lval_ref l i a : lval l (ARef i) = Some a -> 0 <= i < len l /\ nth_error l (Z.to_nat i) = Some (Some a).
  Proof.
    cbn [lval]. destruct (i <? 0) eqn:Ei; [discriminate|]. destruct (nth_error l (Z.to_nat i)) as [[b|]|] eqn:En; try discriminate.
    intros E. injection E as ->. split; [|reflexivity]. apply nth_error_lt in En. unfold len. lia.
  Qed.
  Lemma lval_read l rest x a : lval l x = Some a -> arg_read (cells l ++ rest) x = Ret a.
  Proof.
    destruct x as [b|i]; [cbn; congruence|]. intros H. apply lval_ref in H. destruct H as (Hi & Hn). cbn [arg_read].
    unfold slot_read. replace (i <? 0) with false by lia. unfold len in Hi.
    rewrite nth_error_app1 by (rewrite map_length; lia). rewrite nth_error_map, Hn. reflexivity.
  Qed.
  Lemma lval_app l l' x a : lval l x = Some a -> lval (l ++ l') x = Some a.
  Proof.
    destruct x as [b|i]; [cbn; congruence|]. intros H. apply lval_ref in H. destruct H as (Hi & Hn). cbn [lval].
    replace (i <? 0) with false by lia. unfold len in Hi. rewrite nth_error_app1 by lia. rewrite Hn. reflexivity.
  Qed.

  Lemma construct_loop cap x a n l rest : lval l x = Some a -> (n <= length rest)%nat ->
    len l + Z.of_nat n <= cap ->
    slot_loop (fun m i => d_construct cap m i x) (cells l ++ rest) (len l) n =
      Ret (cells (l ++ repeat (Some a) n) ++ skipn n rest).
  Proof.
    revert l rest. induction n as [|n IH]; intros l rest Hx Hr Hc; cbn [slot_loop repeat].
    - rewrite app_nil_r. reflexivity.
    - destruct rest as [|c rest]; [cbn in Hr; lia|]. cbn [length] in Hr. unfold d_construct at 1, assert.
      replace (len l <? cap) with true by lia. rewrite (lval_read l _ x a Hx). cbn [bind].
      unfold len at 1. rewrite <- (map_length (@cell_of A) l) at 1. rewrite slot_new_at. cbn [bind].
      replace (cells l ++ Val a :: rest) with (cells (l ++ [Some a]) ++ rest) by (rewrite map_app, <- app_assoc; reflexivity).
      replace (len l + 1) with (len (l ++ [Some a])) by (unfold len; rewrite app_length; cbn [length]; lia).
      rewrite IH.
      + cbn [skipn]. rewrite <- app_assoc. reflexivity.
      + apply lval_app. exact Hx.
      + lia.
      + unfold len in *. rewrite app_length. cbn [length]. lia.
  Qed.

  Lemma destruct_loop cap (l1 l2 : list elem) rest : len l1 + len l2 <= cap ->
    slot_loop (d_destruct cap) (cells (l1 ++ l2) ++ rest) (len l1) (length l2) =
      Ret (cells l1 ++ repeat Raw (length l2) ++ rest).
  Proof.
    (* general form with already destroyed slots *)
    assert (G : forall (l2 : list elem) (m1 : list (cell A)) rest, Z.of_nat (length m1) + len l2 <= cap ->
      slot_loop (d_destruct cap) (m1 ++ cells l2 ++ rest) (Z.of_nat (length m1)) (length l2) = Ret (m1 ++ repeat Raw (length l2) ++ rest)).
    { clear. intros l2. induction l2 as [|e l2 IH]; intros m1 rest Hc; cbn [length slot_loop map repeat app]; [reflexivity|].
      unfold d_destruct at 1, assert. unfold len in *. cbn [length] in Hc. replace (Z.of_nat (length m1) <? cap) with true by lia.
      unfold slot_delete. replace (Z.of_nat (length m1) <? 0) with false by lia. rewrite Nat2Z.id.
      rewrite nth_error_app2, Nat.sub_diag by lia. cbn [nth_error].
      replace (match cell_of e with Raw => UB | _ => Ret (upd (m1 ++ cell_of e :: cells l2 ++ rest) (length m1) Raw) end)
        with (Ret (m1 ++ Raw :: cells l2 ++ rest)) by (rewrite upd_at; destruct e; reflexivity).
      cbn [bind]. replace (m1 ++ Raw :: cells l2 ++ rest) with ((m1 ++ [Raw]) ++ cells l2 ++ rest) by (rewrite <- app_assoc; reflexivity).
      replace (Z.of_nat (length m1) + 1) with (Z.of_nat (length (m1 ++ [@Raw A]))) by (rewrite app_length; cbn [length]; lia).
      rewrite IH by (rewrite app_length; cbn [length]; lia). rewrite <- app_assoc. reflexivity. }
    intros Hc. rewrite map_app, <- app_assoc. unfold len at 1. rewrite <- (map_length (@cell_of A) l1). apply G.
    rewrite map_length. exact Hc.
  Qed.

  Lemma implicit_loop n l rest : (n <= length rest)%nat ->
    slot_loop slot_implicit (cells l ++ rest) (len l) n = Ret (cells (l ++ repeat None n) ++ skipn n rest).
  Proof.
    revert l rest. induction n as [|n IH]; intros l rest Hr; cbn [slot_loop repeat].
    - rewrite app_nil_r. reflexivity.
    - destruct rest as [|c rest]; [cbn in Hr; lia|]. cbn [length] in Hr. unfold slot_implicit at 1. cbn [bind].
      unfold len at 1. rewrite Nat2Z.id. rewrite <- (map_length (@cell_of A) l) at 1. rewrite upd_at.
      replace (cells l ++ Indet :: rest) with (cells (l ++ [None]) ++ rest) by (rewrite map_app, <- app_assoc; reflexivity).
      replace (len l + 1) with (len (l ++ [@None A])) by (unfold len; rewrite app_length; cbn [length]; lia).
      rewrite IH by lia. cbn [skipn]. rewrite <- app_assoc. reflexivity.
  Qed.

  Lemma append_each_ok cap v l rest : (length v <= length rest)%nat -> len l + Z.of_nat (length v) <= cap -> cap < 2 ^ 32 ->
    d_append_each cap (len l) (cells l ++ rest) v = Ret (len (l ++ map Some v), cells (l ++ map Some v) ++ skipn (length v) rest).
  Proof.
    revert l rest. induction v as [|a v IH]; intros l rest Hr Hc Hm; cbn [d_append_each map length].
    - rewrite app_nil_r. reflexivity.
    - destruct rest as [|c rest]; [cbn in Hr; lia|]. cbn [length] in Hr, Hc. unfold d_construct, assert.
      replace (len l <? cap) with true by lia. cbn [arg_read bind].
      unfold len at 1. rewrite <- (map_length (@cell_of A) l) at 1. rewrite slot_new_at. cbn [bind].
      replace (cells l ++ Val a :: rest) with (cells (l ++ [Some a]) ++ rest) by (rewrite map_app, <- app_assoc; reflexivity).
      assert (E : add32 (len l) 1 = len (l ++ [Some a])).
      { unfold add32, len in *. rewrite app_length. cbn [length]. rewrite Z.mod_small; lia. }
      rewrite E, IH; try lia.
      + cbn [skipn]. rewrite <- !app_assoc. reflexivity.
      + unfold len in *. rewrite app_length. cbn [length]. lia.
  Qed.

  (** The relation in the form used by the proof. *)
  Definition rel (s : dvec A) (l : list elem) (rest : list (cell A)) : Prop :=
    d_cap s < 2 ^ 32 /\ d_size s = Some (len l) /\ d_mem s = cells l ++ rest /\ len l + Z.of_nat (length rest) = d_cap s.

  Lemma holds_rel s l : holds s l -> exists rest, rel s l rest.
  Proof.
    intros (H1 & H2 & H3 & H4). exists (skipn (length l) (d_mem s)). unfold rel. split; [auto|]. split; [auto|].
    split; [rewrite <- H4; symmetry; apply firstn_skipn|]. unfold len. rewrite skipn_length.
    assert (length l <= length (d_mem s))%nat.
    { apply (f_equal (@length _)) in H4. rewrite map_length, firstn_length in H4. lia. }
    lia.
  Qed.
  Lemma rel_holds s l rest : rel s l rest -> holds s l.
  Proof.
    intros (H1 & H2 & H3 & H4). unfold holds. rewrite H3, app_length, map_length. unfold len in *.
    split; [auto|]. split; [auto|]. split; [lia|].
    rewrite firstn_app, map_length, Nat.sub_diag. rewrite firstn_all2 by (rewrite map_length; lia). cbn [firstn]. apply app_nil_r.
  Qed.
  Lemma rel_clean s l rest : rel s l rest -> (clean s <-> Forall (eq Raw) rest).
  Proof.
    intros (H1 & H2 & H3 & H4). unfold clean, dv_size. rewrite H2, H3. unfold len. split.
    - intros H. apply Forall_forall. intros c Hc. apply In_nth_error in Hc. destruct Hc as (k & Hk). symmetry.
      apply (H (length l + k)%nat); [lia|]. rewrite nth_error_app2 by (rewrite map_length; lia). rewrite map_length.
      rewrite <- Hk. f_equal. lia.
    - intros H i Hi c Hc. rewrite nth_error_app2 in Hc by (rewrite map_length; lia). rewrite map_length in Hc.
      apply nth_error_In in Hc. rewrite Forall_forall in H. symmetry. auto.
  Qed.

  Lemma Forall_skipn {B} (P : B -> Prop) n (r : list B) : Forall P r -> Forall P (skipn n r).
  Proof. revert n. induction r; intros [|n] H; cbn [skipn]; auto. inversion H; auto. Qed.
  Lemma Forall_repeat {B} (P : B -> Prop) n x : P x -> Forall P (repeat x n).
  Proof. intros H. induction n; cbn [repeat]; auto. Qed.

  (** Growing calls. *)
  Lemma grow_ok cap l rest n x l' : 0 <= n -> lgrow cap l n x = Some l' -> len l + Z.of_nat (length rest) = cap ->
    slot_loop (fun m i => d_construct cap m i x) (cells l ++ rest) (len l) (Z.to_nat n) = Ret (cells l' ++ skipn (Z.to_nat n) rest) /\
    len l' = len l + n /\ len l' + Z.of_nat (length (skipn (Z.to_nat n) rest)) = cap.
  Proof.
    intros Hn HG Hc. unfold lgrow in HG. destruct (n =? 0) eqn:E0.
    - injection HG as <-. replace n with 0 by lia. cbn [Z.to_nat slot_loop skipn]. split; [reflexivity|]. lia.
    - destruct (len l + n <=? cap) eqn:E1; [|discriminate]. destruct (lval l x) as [a|] eqn:Ea; [|discriminate].
      injection HG as <-. rewrite (construct_loop cap x a) by (auto; lia). split; [reflexivity|].
      unfold len in *. rewrite app_length, repeat_length, skipn_length. lia.
  Qed.

  Lemma dstep_ok s l rest o r l' : rel s l rest -> lstep dflt (d_cap s) l o = Some (r, l') ->
    exists s' rest', dstep dflt s o = Ret (r, s') /\ rel s' l' rest' /\ d_cap s' = d_cap s /\
      (explicit o = true -> Forall (eq Raw) rest -> Forall (eq Raw) rest').
  Proof.
    intros (Hm & Hs & Hmem & Hc) HL. pose proof (Zle_0_nat (length l)) as Hl0. fold (len l) in Hl0.
    assert (Hsz : dv_size s = len l) by (unfold dv_size; rewrite Hs; reflexivity).
    assert (Hclear : exists c, d_clear s = Ret (mkD (d_cap s) (Some 0) (cells [] ++ c)) /\ Z.of_nat (length c) = d_cap s /\
                       (Forall (eq Raw) rest -> Forall (eq Raw) c)).
    { unfold d_clear, d_counter. rewrite Hs. cbn [bind]. unfold len at 1. rewrite Nat2Z.id, Hmem.
      pose proof (destruct_loop (d_cap s) [] l rest ltac:(unfold len in *; cbn [length]; lia)) as HD. cbn [app map] in HD.
      change (len (@nil elem)) with 0 in HD. rewrite HD. cbn [bind]. eexists. split; [reflexivity|]. split.
      - rewrite app_length, repeat_length. unfold len in *. lia.
      - intros HR. apply Forall_app. split; [apply Forall_repeat; reflexivity|auto]. }
    assert (Hread : forall i a, lval l (ARef i) = Some a -> slot_read (d_mem s) i = Ret a /\ 0 <= i < len l).
    { intros i a Hi. split; [rewrite Hmem; exact (lval_read l rest (ARef i) a Hi)|]. apply (lval_ref _ _ _ Hi). }
    assert (Hgrow : forall n x l1, 0 <= n -> lgrow (d_cap s) l n x = Some l1 ->
       slot_loop (fun m i => d_construct (d_cap s) m i x) (d_mem s) (len l) (Z.to_nat n) = Ret (cells l1 ++ skipn (Z.to_nat n) rest) /\
       len l1 = len l + n /\ len l1 + Z.of_nat (length (skipn (Z.to_nat n) rest)) = d_cap s).
    { intros n x l1 Hn HG. rewrite Hmem. apply grow_ok; auto. }
    assert (Hpre : forall n, 0 <= n <= len l ->
       slot_loop (d_destruct (d_cap s)) (d_mem s) n (Z.to_nat (len l - n)) =
         Ret (cells (firstn (Z.to_nat n) l) ++ repeat Raw (Z.to_nat (len l - n)) ++ rest) /\ len (firstn (Z.to_nat n) l) = n).
    { intros n Hn. assert (El : len (firstn (Z.to_nat n) l) = n) by (unfold len in *; rewrite firstn_length; lia). split; [|exact El].
      pose proof (destruct_loop (d_cap s) (firstn (Z.to_nat n) l) (skipn (Z.to_nat n) l) rest) as HD.
      rewrite firstn_skipn, El in HD. assert (E2 : length (skipn (Z.to_nat n) l) = Z.to_nat (len l - n)) by (rewrite skipn_length; unfold len in *; lia).
      rewrite E2 in HD. rewrite Hmem. apply HD. unfold len in *. rewrite E2. lia. }
    (* resize *)
    assert (Hresize : forall n x, (if n <? 0 then None else if n <=? len l then Some (RUnit, firstn (Z.to_nat n) l)
                     else option_map (pair RUnit) (lgrow (d_cap s) l (n - len l) x)) = Some (r, l') ->
              exists s' rest', void (d_resize s n x) = Ret (r, s') /\ rel s' l' rest' /\ d_cap s' = d_cap s /\
                (Forall (eq Raw) rest -> Forall (eq Raw) rest')).
    { intros n x HX. destruct (n <? 0) eqn:E0; [discriminate|]. unfold d_resize, d_counter. rewrite Hs. cbn [bind].
      destruct (n <=? len l) eqn:E1.
      - injection HX as <- <-. destruct (Hpre n ltac:(lia)) as (HP & El). destruct (n =? len l) eqn:E2.
        + exists s, rest. cbn [bind]. split; [reflexivity|]. rewrite firstn_all2 by (unfold len in *; lia). unfold rel. auto 10.
        + replace (n <? len l) with true by lia. rewrite HP. cbn [bind]. eexists. exists (repeat Raw (Z.to_nat (len l - n)) ++ rest).
          split; [reflexivity|]. unfold rel. cbn [d_cap d_size d_mem]. rewrite El. split; [|split; [reflexivity|]].
          * split; [auto|]. split; [reflexivity|]. split; [reflexivity|]. rewrite app_length, repeat_length. lia.
          * intros HR. apply Forall_app. split; [apply Forall_repeat; reflexivity|auto].
      - destruct (lgrow (d_cap s) l (n - len l) x) as [l1|] eqn:EG; [|discriminate]. injection HX as <- <-.
        destruct (Hgrow (n - len l) x l1 ltac:(lia) EG) as (G1 & G2 & G3). replace (n =? len l) with false by lia. replace (n <? len l) with false by lia.
        rewrite G1. cbn [bind]. eexists. exists (skipn (Z.to_nat (n - len l)) rest). split; [reflexivity|]. unfold rel. cbn [d_cap d_size d_mem].
        split; [|split; [reflexivity|intros; apply Forall_skipn; auto]].
        split; [auto|]. split; [f_equal; lia|]. split; [reflexivity|lia]. }
    assert (Hadd : forall n, 0 <= n -> len l + n <= d_cap s -> add32 (len l) n = len l + n) by (intros; unfold add32; rewrite Z.mod_small; lia).
    (* bulk_append *)
    assert (Hbulk : forall n x, (if 0 <=? n then option_map (pair (RSize (len l))) (lgrow (d_cap s) l n x) else None) = Some (r, l') ->
              exists s' rest', sized (d_bulk_append s n x) = Ret (r, s') /\ rel s' l' rest' /\ d_cap s' = d_cap s /\
                (Forall (eq Raw) rest -> Forall (eq Raw) rest')).
    { intros n x HX. destruct (0 <=? n) eqn:E0; [|discriminate]. destruct (lgrow (d_cap s) l n x) as [l1|] eqn:EG; [|discriminate].
      injection HX as <- <-. destruct (Hgrow n x l1 ltac:(lia) EG) as (G1 & G2 & G3).
      unfold d_bulk_append, d_counter. rewrite Hs. cbn [bind]. unfold assert. rewrite Hadd by lia.
      replace (len l + n <=? d_cap s) with true by lia. rewrite G1. cbn [bind]. eexists. exists (skipn (Z.to_nat n) rest). split; [reflexivity|].
      unfold rel. cbn [fst snd d_cap d_size d_mem]. split; [|split; [reflexivity|intros; apply Forall_skipn; auto]].
      split; [auto|]. split; [f_equal; lia|]. split; [reflexivity|lia]. }
    assert (Hsame : r = r -> forall (X : dres (A:=A)), X = Ret (r, s) -> l' = l -> exists s' rest', X = Ret (r, s') /\ rel s' l' rest' /\ d_cap s' = d_cap s /\
                (explicit o = true -> Forall (eq Raw) rest -> Forall (eq Raw) rest')).
    { intros _ X HX ->. exists s, rest. split; [auto|]. unfold rel. auto 10. }
    destruct o as [|n x|v|x|a| |n x|n|n|n x|n|n|i|i| | | | |]; cbn [lstep dstep explicit] in *.
    - (* clear *) injection HL as <- <-. destruct Hclear as (c & E & Hlc & HR). rewrite E. cbn [void bind].
      eexists. exists c. split; [reflexivity|]. unfold rel, len. cbn [d_cap d_size d_mem length]. split; [|auto].
      split; [auto|]. split; [reflexivity|]. split; [reflexivity|lia].
    - (* assign *) destruct (0 <=? n) eqn:E0; [|discriminate]. destruct (lgrow (d_cap s) [] n x) as [l1|] eqn:EG; [|discriminate].
      injection HL as <- <-. destruct Hclear as (c & E & Hlc & HR). unfold d_assign, d_counter. rewrite Hs. cbn [bind]. unfold assert.
      assert (Hn : n <= d_cap s).
      { unfold lgrow in EG. destruct (n =? 0) eqn:E1; [lia|]. unfold len in EG. cbn [length] in EG. destruct (Z.of_nat 0 + n <=? d_cap s) eqn:E2; [lia|discriminate]. }
      replace (n <=? d_cap s) with true by lia. rewrite E. cbn [bind d_mem].
      destruct (grow_ok (d_cap s) [] c n x l1 ltac:(lia) EG ltac:(cbn; lia)) as (G1 & G2 & G3). change (len (@nil elem)) with 0 in *.
      rewrite G1. cbn [bind void]. eexists. exists (skipn (Z.to_nat n) c). split; [reflexivity|]. unfold rel. cbn [d_cap d_size d_mem].
      split; [|split; [reflexivity|intros; apply Forall_skipn; auto]]. split; [auto|]. split; [f_equal; lia|]. split; [reflexivity|lia].
    - (* assign range *) destruct (Z.of_nat (length v) <=? d_cap s) eqn:E0; [|discriminate]. injection HL as <- <-.
      destruct Hclear as (c & E & Hlc & HR). unfold d_assign_range. rewrite E. cbn [bind d_mem].
      pose proof (append_each_ok (d_cap s) v [] c ltac:(lia) ltac:(cbn; lia) Hm) as HA. change (len (@nil elem)) with 0 in HA.
      rewrite HA. cbn [bind fst snd void app]. eexists. exists (skipn (length v) c). split; [reflexivity|]. unfold rel. cbn [d_cap d_size d_mem].
      split; [|split; [reflexivity|intros; apply Forall_skipn; auto]]. split; [auto|]. split; [reflexivity|]. split; [reflexivity|].
      unfold len. rewrite map_length, skipn_length. lia.
    - (* push_back *) destruct (lgrow (d_cap s) l 1 x) as [l1|] eqn:EG; [|discriminate]. injection HL as <- <-.
      destruct (Hgrow 1 x l1 ltac:(lia) EG) as (G1 & G2 & G3). change (Z.to_nat 1) with 1%nat in *. cbn [slot_loop] in G1.
      unfold d_push_back, d_counter. rewrite Hs. cbn [bind]. unfold assert. replace (len l <? d_cap s) with true by lia.
      destruct (d_construct (d_cap s) (d_mem s) (len l) x) as [m| |] eqn:EC; cbn [bind] in G1; try discriminate. injection G1 as ->.
      cbn [bind sized fst snd]. eexists. exists (skipn 1 rest). split; [reflexivity|]. unfold rel. cbn [d_cap d_size d_mem].
      split; [|split; [reflexivity|intros; apply Forall_skipn; auto]]. rewrite Hadd by lia.
      split; [auto|]. split; [f_equal; lia|]. split; [reflexivity|lia].
    - (* emplace_back *) destruct (lgrow (d_cap s) l 1 (AVal a)) as [l1|] eqn:EG; [|discriminate]. injection HL as <- <-.
      destruct (Hgrow 1 (AVal a) l1 ltac:(lia) EG) as (_ & G2 & G3).
      unfold lgrow in EG. cbn [Z.eqb lval] in EG. destruct (len l + 1 <=? d_cap s) eqn:E1; [|discriminate]. change (Z.to_nat 1) with 1%nat in *. cbn [repeat] in EG. injection EG as <-.
      unfold d_emplace_back, d_counter. rewrite Hs. cbn [bind]. unfold assert. replace (len l <? d_cap s) with true by lia. rewrite Hmem.
      destruct rest as [|c rest]; [cbn in Hc; lia|]. pose proof (slot_new_at (cells l) c rest a) as Hnew. pose proof (slot_read_at (cells l) a rest) as Hrd.
      rewrite map_length in Hnew, Hrd. fold (len l) in Hnew, Hrd. rewrite Hnew. cbn [bind]. rewrite Hrd. cbn [bind fst snd].
      eexists. exists rest. split; [reflexivity|]. unfold rel. cbn [d_cap d_size d_mem].
      split; [|split; [reflexivity|intros _ HR; inversion HR; auto]]. rewrite Hadd by lia.
      split; [auto|]. split; [f_equal; lia|]. split; [rewrite map_app, <- app_assoc; reflexivity|]. cbn [skipn] in G3. exact G3.
    - (* pop_back *) destruct (exists_last (l := l)) as (l0 & e & El); [destruct l; discriminate|].
      assert (HL' : r = RSize (len l - 1) /\ l' = l0).
      { destruct l as [|e0 l1]; [destruct l0; discriminate|]. injection HL as <- <-. split; [reflexivity|]. change (removelast (e0 :: l1) = l0). rewrite El. apply removelast_last. }
      destruct HL' as (-> & ->). clear HL. unfold d_pop_back, d_counter. rewrite Hs. cbn [bind].
      assert (E0 : len l = len l0 + 1) by (rewrite El; unfold len; rewrite app_length; cbn [length]; lia).
      assert (E1 : add32 (len l) (-1) = len l0) by (unfold add32; rewrite E0; rewrite Z.mod_small; unfold len in *; lia).
      rewrite E1. pose proof (destruct_loop (d_cap s) l0 [e] rest ltac:(unfold len in *; cbn [length]; lia)) as HD. rewrite <- El, <- Hmem in HD.
      cbn [length slot_loop] in HD. destruct (d_destruct (d_cap s) (d_mem s) (len l0)) as [m| |]; cbn [bind] in HD; try discriminate.
      injection HD as ->. cbn [bind sized fst snd repeat app]. replace (len l0) with (len l - 1) by lia. eexists. exists (Raw :: rest). split; [reflexivity|]. unfold rel. cbn [d_cap d_size d_mem].
      split; [|split; [reflexivity|auto]]. split; [auto|]. split; [f_equal; lia|]. split; [reflexivity|]. cbn [length]. lia.
    - destruct (Hresize n x HL) as (s' & rest' & H1 & H2 & H3 & H4). exists s', rest'. auto.
    - destruct (Hresize n (AVal dflt) HL) as (s' & rest' & H1 & H2 & H3 & H4). exists s', rest'. auto.
    - destruct (Hbulk n (AVal dflt) HL) as (s' & rest' & H1 & H2 & H3 & H4). exists s', rest'. auto.
    - destruct (Hbulk n x HL) as (s' & rest' & H1 & H2 & H3 & H4). exists s', rest'. auto.
    - (* bulk_append_implicit *) destruct ((0 <=? n) && (len l + n <=? d_cap s)) eqn:E0; [|discriminate]. injection HL as <- <-.
      unfold d_bulk_append_implicit, d_counter. rewrite Hs. cbn [bind]. unfold assert. rewrite Hadd by lia. replace (len l + n <=? d_cap s) with true by lia.
      rewrite Hmem, implicit_loop by lia. cbn [bind sized fst snd]. eexists. exists (skipn (Z.to_nat n) rest). split; [reflexivity|]. unfold rel. cbn [d_cap d_size d_mem].
      split; [|split; [reflexivity|intros; apply Forall_skipn; auto]]. split; [auto|]. unfold len in *. rewrite app_length, repeat_length, skipn_length.
      split; [f_equal; lia|]. split; [reflexivity|lia].
    - (* resize_implicit *) destruct ((0 <=? n) && (n <=? d_cap s)) eqn:E0; [|discriminate]. injection HL as <- <-.
      unfold d_resize_implicit, d_counter. rewrite Hs. cbn [bind]. unfold assert. replace (n <=? d_cap s) with true by lia. rewrite Hmem.
      destruct (n <=? len l) eqn:E1.
      + replace (Z.to_nat (n - len l)) with 0%nat by lia. cbn [slot_loop bind void repeat]. rewrite app_nil_r.
        eexists. exists (cells (skipn (Z.to_nat n) l) ++ rest). split; [reflexivity|]. unfold rel. cbn [d_cap d_size d_mem].
        split; [|split; [reflexivity|discriminate]]. split; [auto|]. unfold len in *. rewrite firstn_length, app_length, map_length, skipn_length.
        split; [f_equal; lia|]. split; [|lia]. rewrite app_assoc, <- map_app, firstn_skipn. reflexivity.
      + rewrite implicit_loop by lia. cbn [bind void]. rewrite firstn_all2 by (unfold len in *; lia).
        eexists. exists (skipn (Z.to_nat (n - len l)) rest). split; [reflexivity|]. unfold rel. cbn [d_cap d_size d_mem].
        split; [|split; [reflexivity|discriminate]]. split; [auto|]. unfold len in *. rewrite app_length, repeat_length, skipn_length.
        split; [f_equal; lia|]. split; [reflexivity|lia].
    - unfold lget in HL. destruct (lval l (ARef i)) as [a|] eqn:Ea; [|discriminate]. injection HL as <- <-. destruct (Hread i a Ea) as (R1 & R2).
      apply Hsame; auto. unfold d_at, assert. rewrite Hsz. replace (i <? len l) with true by lia. rewrite R1. reflexivity.
    - unfold lget in HL. destruct (lval l (ARef i)) as [a|] eqn:Ea; [|discriminate]. injection HL as <- <-. destruct (Hread i a Ea) as (R1 & R2).
      apply Hsame; auto. unfold d_get. rewrite R1. reflexivity.
    - unfold lget in HL. destruct (lval l (ARef 0)) as [a|] eqn:Ea; [|discriminate]. injection HL as <- <-. destruct (Hread 0 a Ea) as (R1 & R2).
      apply Hsame; auto. unfold d_front, assert. rewrite Hsz. replace (0 <? len l) with true by lia. rewrite R1. reflexivity.
    - unfold lget in HL. destruct (lval l (ARef (len l - 1))) as [a|] eqn:Ea; [|discriminate]. injection HL as <- <-. destruct (Hread _ a Ea) as (R1 & R2).
      apply Hsame; auto. unfold d_back, assert. rewrite Hsz. replace (0 <? len l) with true by lia. rewrite R1. reflexivity.
    - injection HL as <- <-. apply Hsame; auto. rewrite Hsz. reflexivity.
    - injection HL as <- <-. apply Hsame; auto. unfold d_empty. rewrite Hsz. destruct l; reflexivity.
    - injection HL as <- <-. apply Hsame; auto.
  Qed.
End Proof.

Section Theorems.
  Context {A : Type} (dflt : A).

  Lemma step_thm (s : dvec A) l o r l' : holds s l -> lstep dflt (d_cap s) l o = Some (r, l') ->
    exists s', dstep dflt s o = Ret (r, s') /\ holds s' l' /\ d_cap s' = d_cap s /\
      (explicit o = true -> clean s -> clean s').
  Proof.
    intros HH HL. destruct (holds_rel _ _ HH) as (rest & HR). destruct (dstep_ok dflt s l rest o r l' HR HL) as (s' & rest' & E & HR' & Hc & Hx).
    exists s'. split; [auto|]. split; [eapply rel_holds; eauto|]. split; [auto|]. intros Ho Hcl.
    apply (rel_clean _ _ _ HR'). apply Hx; auto. apply (rel_clean _ _ _ HR). auto.
  Qed.

  Lemma runs_thm ops : forall (s : dvec A) l rs l', holds s l -> lruns dflt (d_cap s) l ops = Some (rs, l') ->
    exists s', druns dflt s ops = Ret (rs, s') /\ holds s' l' /\ d_cap s' = d_cap s /\
      (forallb explicit ops = true -> clean s -> clean s').
  Proof.
    induction ops as [|o ops IH]; intros s l rs l' HH HL; cbn [lruns druns forallb] in *.
    - injection HL as <- <-. exists s. auto.
    - destruct (lstep dflt (d_cap s) l o) as [[r l1]|] eqn:E1; [|discriminate].
      destruct (lruns dflt (d_cap s) l1 ops) as [[rs1 l2]|] eqn:E2; [|discriminate]. injection HL as <- <-.
      destruct (step_thm s l o r l1 HH E1) as (s1 & D1 & H1 & C1 & X1). rewrite <- C1 in E2.
      destruct (IH s1 l1 rs1 l2 H1 E2) as (s2 & D2 & H2 & C2 & X2). rewrite D1. cbn [bind fst snd]. rewrite D2. cbn [bind fst snd].
      exists s2. split; [reflexivity|]. split; [auto|]. split; [congruence|]. intros HE Hcl. apply andb_prop in HE. destruct HE. auto.
  Qed.

  Lemma read_all_thm (v : list A) : forall m1 m2,
    slot_read_all (m1 ++ map Val v ++ m2) (Z.of_nat (length m1)) (length v) = Ret v.
  Proof.
    induction v as [|a v IH]; intros m1 m2; cbn [slot_read_all length map app]; [reflexivity|].
    rewrite slot_read_at. cbn [bind]. replace (m1 ++ Val a :: map Val v ++ m2) with ((m1 ++ [Val a]) ++ map Val v ++ m2) by (rewrite <- app_assoc; reflexivity).
    replace (Z.of_nat (length m1) + 1) with (Z.of_nat (length (m1 ++ [Val a]))) by (rewrite app_length; cbn [length]; lia).
    rewrite IH. reflexivity.
  Qed.

  Lemma elements_thm (s : dvec A) v : holds s (map Some v) -> d_elements s = Ret v /\ dv_size s = Z.of_nat (length v).
  Proof.
    intros HH. destruct (holds_rel _ _ HH) as (rest & HR). destruct HR as (_ & Hs & Hm & _). unfold d_elements, dv_size. rewrite Hs, Hm.
    unfold len. rewrite map_length, Nat2Z.id. split; [|reflexivity]. rewrite map_map. cbn [cell_of].
    apply (read_all_thm v [] rest).
  Qed.

  (** Exactly the slots below the size hold an object. *)
  Definition is_object (c : cell A) : bool := match c with Raw => false | _ => true end.
  Lemma objects_thm (s : dvec A) l : holds s l -> clean s ->
    forall i c, nth_error (d_mem s) i = Some c -> (is_object c = true <-> Z.of_nat i < dv_size s).
  Proof.
    intros HH Hc i c Hi. destruct HH as (_ & Hs & _ & Hm). unfold dv_size. rewrite Hs. unfold len. split.
    - intros Ho. destruct (Z_lt_le_dec (Z.of_nat i) (Z.of_nat (length l))) as [|Hge]; auto.
      unfold clean, dv_size in Hc. rewrite Hs in Hc. rewrite (Hc i Hge c Hi) in Ho. discriminate.
    - intros Hlt. assert (E : nth_error (firstn (length l) (d_mem s)) i = Some c).
      { rewrite <- Hi. rewrite <- (firstn_skipn (length l) (d_mem s)) at 2. rewrite nth_error_app1; auto.
        apply (f_equal (@length _)) in Hm. rewrite map_length in Hm. lia. }
      rewrite Hm, nth_error_map in E. destruct (nth_error l i) as [[a|]|]; cbn in E; [|injection E as <-; reflexivity|discriminate].
      injection E as <-. reflexivity.
  Qed.
End Theorems.
