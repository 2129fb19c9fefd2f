(** Proofs about vecmem::tuple. *)
From Verif Require Export Tuple.
From Coq Require Import List ZArith Lia.
Import ListNotations.

Fixpoint members (t : tuple) : list member := match t with TNil => [] | TCons m t' => m :: members t' end.

Lemma sizeof_members t : sizeof t = length (members t).
Proof. induction t; cbn; congruence. Qed.
Lemma get_members i t : get i t = option_map denotes (nth_error (members t) i).
Proof.
  unfold get. rewrite sizeof_members.
  assert (G : get_impl i t = option_map denotes (nth_error (members t) i)) by (revert i; induction t; intros [|i]; cbn; auto).
  destruct (Nat.ltb_spec i (length (members t))); [exact G|]. rewrite (proj2 (nth_error_None _ _)) by lia. reflexivity.
Qed.
Definition mtype (m : member) : etype := match m with MObject _ => TObject | MReference _ => TReference end.
Lemma types_members t : types t = map mtype (members t).
Proof. induction t as [|[|] ]; cbn; congruence. Qed.

Lemma convert_construct ts parent st : convert ts parent st = construct ts (map denotes (members parent)) st.
Proof.
  revert parent st. induction ts as [|t ts IH]; intros [|h tl] st; cbn; auto.
  destruct (init t (denotes h) st) as [[h' st1]|]; auto. rewrite IH. reflexivity.
Qed.

Lemma read_app st st' l v : read st l = Some v -> read (st ++ st') l = Some v.
Proof.
  unfold read. destruct (nth_error st l) as [o|] eqn:E; [|discriminate]. rewrite nth_error_app1 by (apply nth_error_Some; congruence).
  rewrite E. auto.
Qed.
Lemma read_lt st l v : read st l = Some v -> (l < length st)%nat.
Proof. unfold read. destruct (nth_error st l) eqn:E; [|discriminate]. intros _. apply nth_error_Some. congruence. Qed.
Lemma read_new st st' v : read (st ++ Some v :: st') (length st) = Some v.
Proof. unfold read. rewrite nth_error_app2, Nat.sub_diag by lia. reflexivity. Qed.

Lemma construct_none ts args st : length ts <> length args -> construct ts args st = None.
Proof.
  revert args st. induction ts as [|t ts IH]; intros [|a args] st N; cbn in *; try congruence; auto.
  destruct (init t a st) as [[h st1]|]; auto. rewrite IH by lia. reflexivity.
Qed.

(** What element [i] denotes. *)
Definition element (st st' : store) (t : etype) (a l : nat) : Prop :=
  match t with
  | TReference => l = a
  | TObject => (length st <= l < length st')%nat /\ read st' l = read st a
  end.

Lemma construct_thm ts : forall args st, length ts = length args -> (forall a, In a args -> read st a <> None) ->
  exists t new, construct ts args st = Some (t, st ++ new) /\ map mtype (members t) = ts /\
    (forall i ty a, nth_error ts i = Some ty -> nth_error args i = Some a ->
      exists m, nth_error (members t) i = Some m /\ mtype m = ty /\ element st (st ++ new) ty a (denotes m)) /\
    (forall i j l l', i <> j -> nth_error (members t) i = Some (MObject l) -> nth_error (members t) j = Some (MObject l') -> l <> l') /\
    Forall (fun o => o <> None) new.
Proof.
  induction ts as [|ty ts IH]; intros [|a args] st L A; cbn in L; try discriminate.
  - exists TNil, []. cbn. rewrite app_nil_r. repeat split; auto; intros [|i]; discriminate.
  - destruct (read st a) as [v|] eqn:RA; [|exfalso; eapply A; [left; reflexivity|exact RA]].
    assert (I : exists h n1, init ty a st = Some (h, st ++ n1) /\ mtype h = ty /\ element st (st ++ n1) ty a (denotes h) /\ Forall (fun o => o <> None) n1 /\
        (forall l, h = MObject l -> (l < length (st ++ n1))%nat)).
    { destruct ty; unfold init.
      - rewrite RA. exists (MObject (length st)), [Some v]. repeat split; auto.
        + rewrite app_length. cbn. lia.
        + cbn [denotes]. rewrite read_new. congruence.
        + repeat constructor. discriminate.
        + intros l [= <-]. rewrite app_length. cbn. lia.
      - exists (MReference a), []. rewrite app_nil_r. repeat split; auto. discriminate. }
    destruct I as (h & n1 & I1 & I2 & I3 & I4 & I5).
    destruct (IH args (st ++ n1) ltac:(lia)) as (tl & n2 & C & M & E & D & F).
    { intros b Hb. destruct (read st b) as [w|] eqn:RB; [|exfalso; eapply A; [right; exact Hb|exact RB]]. rewrite (read_app _ _ _ _ RB). discriminate. }
    assert (ELB : forall i t0 a0, nth_error ts i = Some t0 -> nth_error args i = Some a0 ->
        exists m, nth_error (members tl) i = Some m /\ mtype m = t0 /\ element (st ++ n1) ((st ++ n1) ++ n2) t0 a0 (denotes m)) by exact E.
    exists (TCons h tl), (n1 ++ n2). cbn [construct members map]. rewrite I1, C, I2, M, app_assoc. repeat split; auto.
    + intros [|i] t0 a0 Ht Ha; cbn in Ht, Ha.
      * injection Ht as <-. injection Ha as <-. exists h. split; [reflexivity|split; auto].
        destruct ty; cbn [element] in *; [|auto]. destruct I3 as ((P & Q) & R). rewrite RA in R. rewrite (read_app _ _ _ _ R), !app_length in *. split; [lia|auto].
      * destruct (E i t0 a0 Ht Ha) as (m & M1 & M2 & M3). exists m. split; [exact M1|split; auto].
        destruct t0; cbn [element] in *; [|auto]. destruct M3 as (P & R). rewrite !app_length in *. split; [lia|]. rewrite R.
        destruct (read st a0) as [w|] eqn:RB; [apply read_app; exact RB|]. exfalso. eapply A; [right; eapply nth_error_In; exact Ha|exact RB].
    + assert (NEW : forall i l', nth_error (members tl) i = Some (MObject l') -> (length (st ++ n1) <= l')%nat).
      { intros i l' H. assert (Hi : nth_error (map mtype (members tl)) i = Some TObject) by (rewrite nth_error_map, H; reflexivity). rewrite M in Hi.
        destruct (nth_error args i) as [a0|] eqn:Ha.
        - destruct (E i _ _ Hi Ha) as (m & M1 & _ & M3). rewrite H in M1. injection M1 as <-. cbn in M3. lia.
        - apply nth_error_None in Ha. assert (i < length ts)%nat by (apply nth_error_Some; congruence). lia. }
      intros [|i] [|j] l l' N Hl Hl'; cbn in Hl, Hl'; try congruence.
      * injection Hl as ->. specialize (I5 l eq_refl). specialize (NEW j l' Hl'). lia.
      * injection Hl' as ->. specialize (I5 l' eq_refl). specialize (NEW i l Hl). lia.
      * eapply (D i j); eauto.
    + apply Forall_app. auto.
Qed.

(** ** Destruction of the tail *)
Lemma write_length st l v : length (write st l v) = length st.
Proof. revert l. induction st as [|x st IH]; intros [|l]; cbn; auto. Qed.
Lemma read_write_other st l v k : k <> l -> read (write st l v) k = read st k.
Proof.
  unfold read. revert l k. induction st as [|x st IH]; intros [|l] [|k] N; cbn; auto; try congruence.
Qed.
Lemma read_write_none st l : read (write st l None) l = None.
Proof. unfold read. revert l. induction st as [|x st IH]; intros [|l]; cbn; auto. Qed.
Lemma destroy_length t : forall st, length (destroy t st) = length st.
Proof. induction t as [|[l|l] t IH]; intros st; cbn; auto. rewrite IH. apply write_length. Qed.
Lemma destroy_other t : forall st k, (forall l, In (MObject l) (members t) -> l <> k) -> read (destroy t st) k = read st k.
Proof.
  induction t as [|[l|l] t IH]; intros st k H; cbn in *; auto.
  rewrite IH by auto. apply read_write_other. intros ->. eapply H; eauto.
Qed.
Lemma destroy_keeps_none t : forall st k, read st k = None -> read (destroy t st) k = None.
Proof.
  induction t as [|[l|l] t IH]; intros st k H; cbn; auto. apply IH.
  destruct (Nat.eq_dec k l) as [->|N]; [apply read_write_none|rewrite read_write_other; auto].
Qed.
Lemma destroy_gone t : forall st l, In (MObject l) (members t) -> read (destroy t st) l = None.
Proof.
  induction t as [|[l0|l0] t IH]; intros st l H; cbn in *; [destruct H| |].
  - destruct H as [[= ->]|H]; [apply destroy_keeps_none, read_write_none|auto].
  - destruct H as [H|H]; [discriminate|auto].
Qed.

(** ** The constructors *)
Lemma element_nth {st st' ts t args} :
  map mtype (members t) = ts -> length ts = length args ->
  (forall i ty a, nth_error ts i = Some ty -> nth_error args i = Some a ->
      exists m, nth_error (members t) i = Some m /\ mtype m = ty /\ element st st' ty a (denotes m)) ->
  forall i, match nth_error ts i, nth_error args i with
    | Some ty, Some a => exists l, get i t = Some l /\ element st st' ty a l
    | _, _ => get i t = None
    end.
Proof.
  intros M L E i. destruct (nth_error ts i) as [ty|] eqn:H1; destruct (nth_error args i) as [a|] eqn:H2.
  - destruct (E i ty a H1 H2) as (m & M1 & _ & M3). exists (denotes m). rewrite get_members, M1. auto.
  - apply nth_error_None in H2. assert (i < length ts)%nat by (apply nth_error_Some; congruence). lia.
  - rewrite get_members. apply nth_error_None in H1. rewrite <- M, map_length in H1. rewrite (proj2 (nth_error_None _ _) H1). reflexivity.
  - rewrite get_members. apply nth_error_None in H1. rewrite <- M, map_length in H1. rewrite (proj2 (nth_error_None _ _) H1). reflexivity.
Qed.

Definition made (ts : list etype) (args : list nat) (st st' : store) (t : tuple) : Prop :=
  (forall i, match nth_error ts i, nth_error args i with
    | Some TReference, Some a => get i t = Some a
    | Some TObject, Some a => exists l, get i t = Some l /\ (length st <= l)%nat /\ read st' l = read st a
    | _, _ => get i t = None
    end) /\
  (forall i j l l', i <> j -> nth_error ts i = Some TObject -> nth_error ts j = Some TObject -> get i t = Some l -> get j t = Some l' -> l <> l').

Lemma made_of ts t args st st' : map mtype (members t) = ts -> length ts = length args ->
  (forall i ty a, nth_error ts i = Some ty -> nth_error args i = Some a ->
      exists m, nth_error (members t) i = Some m /\ mtype m = ty /\ element st st' ty a (denotes m)) ->
  (forall i j l l', i <> j -> nth_error (members t) i = Some (MObject l) -> nth_error (members t) j = Some (MObject l') -> l <> l') ->
  made ts args st st' t.
Proof.
  intros M L E D. split.
  - intros i. pose proof (element_nth M L E i) as H. destruct (nth_error ts i) as [[|]|], (nth_error args i) as [a|]; auto.
    + destruct H as (l & G & (P & _) & R). exists l. auto.
    + destruct H as (l & G & ->). exact G.
  - intros i j l l' N Hi Hj Gi Gj. rewrite get_members in Gi, Gj. rewrite <- M, nth_error_map in Hi, Hj.
    destruct (nth_error (members t) i) as [mi|] eqn:Ei; [|discriminate]. destruct (nth_error (members t) j) as [mj|] eqn:Ej; [|discriminate].
    cbn in Hi, Hj, Gi, Gj. destruct mi as [li|li]; [|discriminate]. destruct mj as [lj|lj]; [|discriminate]. injection Gi as <-. injection Gj as <-. cbn.
    eapply D; eauto.
Qed.

Lemma construct_made ts args st : length ts = length args -> (forall a, In a args -> read st a <> None) ->
  exists t new, construct ts args st = Some (t, st ++ new) /\ made ts args st (st ++ new) t.
Proof.
  intros L A. destruct (construct_thm ts args st L A) as (t & new & C & M & E & D & F). exists t, new. split; [exact C|]. apply made_of; auto.
Qed.

Lemma repeat_refs ts args st t new : construct ts args st = Some (t, st ++ new) -> (forall ty, In ty ts -> ty = TReference) -> new = [].
Proof.
  assert (G : forall ts args st t st', construct ts args st = Some (t, st') -> (forall ty, In ty ts -> ty = TReference) -> st' = st).
  { clear. induction ts as [|ty ts IH]; intros [|a args] st t st' C H; cbn in C; try discriminate; [congruence|].
    rewrite (H ty (or_introl eq_refl)) in C. cbn in C. destruct (construct ts args st) as [[tl st2]|] eqn:E; [|discriminate]. injection C as <- <-.
    apply (IH _ _ _ _ E). intros ty' Hy. apply H. right. exact Hy. }
  intros C H. specialize (G _ _ _ _ _ C H). rewrite <- (app_nil_r st) in G at 2. apply app_inv_head in G. exact G.
Qed.

Lemma tie_thm args st : (forall a, In a args -> read st a <> None) -> exists t, tie args st = Some (t, st) /\ forall i, get i t = nth_error args i.
Proof.
  intros A. unfold tie. destruct (construct_made (map (fun _ => TReference) args) args st) as (t & new & C & M & _); auto; [now rewrite map_length|].
  assert (new = []) as ->.
  { eapply repeat_refs; [exact C|]. intros ty H. apply in_map_iff in H. destruct H as (? & <- & _). reflexivity. }
  rewrite app_nil_r in C. exists t. split; [exact C|]. intros i. specialize (M i). rewrite nth_error_map in M. destruct (nth_error args i); cbn in M; auto.
Qed.

Lemma convert_made ts parent st : length ts = sizeof parent -> (forall i a, get i parent = Some a -> read st a <> None) ->
  exists t new args, convert ts parent st = Some (t, st ++ new) /\ (forall i, nth_error args i = get i parent) /\ made ts args st (st ++ new) t.
Proof.
  intros L A. rewrite convert_construct.
  assert (N : forall i, nth_error (map denotes (members parent)) i = get i parent) by (intros i; rewrite nth_error_map, get_members; reflexivity).
  destruct (construct_made ts (map denotes (members parent)) st) as (t & new & C & M).
  - rewrite map_length, <- sizeof_members. exact L.
  - intros a Ha. apply In_nth_error in Ha. destruct Ha as (i & Hi). rewrite N in Hi. eauto.
  - exists t, new, (map denotes (members parent)). auto.
Qed.

(** A head and a temporary tail. *)
Lemma concat_thm ty ts head tail st :
  length ts = sizeof tail -> read st head <> None -> (forall i a, get i tail = Some a -> read st a <> None) ->
  (forall i, nth_error ts i = Some TReference -> nth_error (types tail) i = Some TReference) ->
  (forall l, In (MObject l) (members tail) -> l <> head) ->
  (forall l, In (MObject l) (members tail) -> ~ In (MReference l) (members tail)) ->
  exists t st', tuple_concat (ty :: ts) head tail st = Some (t, st') /\ (length st <= length st')%nat /\
    (forall k, (k < length st)%nat -> read st' k = if existsb (fun m => match m with MObject l => Nat.eqb l k | _ => false end) (members tail) then None else read st k) /\
    (forall i, match nth_error (ty :: ts) i, nth_error (head :: map denotes (members tail)) i with
      | Some TReference, Some a => get i t = Some a /\ read st' a = read st a
      | Some TObject, Some a => exists l, get i t = Some l /\ (length st <= l)%nat /\ read st' l = read st a
      | _, _ => get i t = None
      end) /\
    (forall i j l l', i <> j -> nth_error (ty :: ts) i = Some TObject -> nth_error (ty :: ts) j = Some TObject -> get i t = Some l -> get j t = Some l' -> l <> l').
Proof.
  intros L RH RT REF OWN1 OWN2.
  set (args := head :: map denotes (members tail)).
  assert (N : forall i, nth_error (map denotes (members tail)) i = get i tail) by (intros i; rewrite nth_error_map, get_members; reflexivity).
  assert (A : forall a, In a args -> read st a <> None).
  { intros a [<-|Ha]; [exact RH|]. apply In_nth_error in Ha. destruct Ha as (i & Hi). rewrite N in Hi. eauto. }
  destruct (construct_thm (ty :: ts) args st) as (t & new & C & M & E & D & F).
  { cbn. rewrite map_length, <- sizeof_members. congruence. } { exact A. }
  exists t, (destroy tail (st ++ new)).
  assert (TLT : forall l, In (MObject l) (members tail) -> (l < length st)%nat).
  { intros l Hl. apply In_nth_error in Hl. destruct Hl as (i & Hi). assert (G : get i tail = Some l) by (rewrite get_members, Hi; reflexivity).
    destruct (read st l) as [v|] eqn:R; [eapply read_lt; exact R|exfalso; eapply RT; eauto]. }
  assert (OLD : forall k v, read st k = Some v -> (forall l, In (MObject l) (members tail) -> l <> k) -> read (destroy tail (st ++ new)) k = Some v).
  { intros k v R H. rewrite destroy_other by exact H. apply read_app. exact R. }
  destruct (made_of (ty :: ts) t args st (st ++ new) M) as (M1 & M2); auto.
  { cbn. rewrite map_length, <- sizeof_members. congruence. }
  split; [|split; [|split; [|split]]].
  - unfold tuple_concat. cbn [construct args] in C. unfold args in C. destruct (init ty head st) as [[h st1]|]; [|discriminate].
    rewrite convert_construct. destruct (construct ts (map denotes (members tail)) st1) as [[tl st2]|]; [|discriminate]. injection C as <- ->. reflexivity.
  - rewrite destroy_length, app_length. lia.
  - intros k Hk. destruct (existsb _ (members tail)) eqn:EX.
    + apply existsb_exists in EX. destruct EX as ([l|l] & H1 & H2); [|discriminate]. apply Nat.eqb_eq in H2. subst l. apply destroy_gone. exact H1.
    + rewrite destroy_other.
      * unfold read. rewrite nth_error_app1 by exact Hk. reflexivity.
      * intros l Hl ->. assert (X : existsb (fun m => match m with MObject l => Nat.eqb l k | _ => false end) (members tail) = true)
          by (apply existsb_exists; exists (MObject k); split; [exact Hl|apply Nat.eqb_refl]). congruence.
  - intros i. specialize (M1 i). revert M1.
    destruct (nth_error (ty :: ts) i) as [[|]|] eqn:H1; destruct (nth_error args i) as [a|] eqn:H2; intros M1; auto.
    + destruct M1 as (l & G & P & R). exists l. repeat split; auto. rewrite destroy_other; [exact R|]. intros l' Hl' ->. apply TLT in Hl'. lia.
    + split; [exact M1|]. assert (RA : read st a <> None) by (apply A; eapply nth_error_In; exact H2).
      destruct (read st a) as [v|] eqn:R; [|congruence]. apply OLD; [exact R|]. intros l Hl ->. destruct i as [|i].
      * cbn in H2. injection H2 as <-. eapply OWN1; eauto.
      * cbn in H1, H2. apply REF in H1. rewrite types_members, nth_error_map in H1. rewrite nth_error_map in H2.
        destruct (nth_error (members tail) i) as [[q|q]|] eqn:Q; cbn in H1, H2; try discriminate. injection H2 as ->. eapply OWN2; [exact Hl|]. eapply nth_error_In; exact Q.
  - exact M2.
Qed.

Lemma in_object t l : In (MObject l) (members t) <-> exists i, nth_error (types t) i = Some TObject /\ get i t = Some l.
Proof.
  rewrite types_members. split.
  - intros H. apply In_nth_error in H. destruct H as (i & Hi). exists i. rewrite nth_error_map, get_members, Hi. auto.
  - intros (i & H1 & H2). rewrite nth_error_map in H1. rewrite get_members in H2. destruct (nth_error (members t) i) as [[q|q]|] eqn:Q; try discriminate.
    injection H2 as <-. eapply nth_error_In. exact Q.
Qed.
Lemma in_reference t l : In (MReference l) (members t) <-> exists i, nth_error (types t) i = Some TReference /\ get i t = Some l.
Proof.
  rewrite types_members. split.
  - intros H. apply In_nth_error in H. destruct H as (i & Hi). exists i. rewrite nth_error_map, get_members, Hi. auto.
  - intros (i & H1 & H2). rewrite nth_error_map in H1. rewrite get_members in H2. destruct (nth_error (members t) i) as [[q|q]|] eqn:Q; try discriminate.
    injection H2 as <-. eapply nth_error_In. exact Q.
Qed.

Lemma concat_made ty ts head tail st :
  length ts = sizeof tail -> read st head <> None -> (forall i a, get i tail = Some a -> read st a <> None) ->
  (forall i, nth_error ts i = Some TReference -> nth_error (types tail) i = Some TReference) ->
  (forall i l, nth_error (types tail) i = Some TObject -> get i tail = Some l ->
     l <> head /\ forall j, nth_error (types tail) j = Some TReference -> get j tail <> Some l) ->
  exists t st', tuple_concat (ty :: ts) head tail st = Some (t, st') /\
    (forall k, (k < length st)%nat -> (forall i, nth_error (types tail) i = Some TObject -> get i tail <> Some k) -> read st' k = read st k) /\
    (forall i l, nth_error (types tail) i = Some TObject -> get i tail = Some l -> read st' l = None) /\
    (forall i, match nth_error (ty :: ts) i, match i with O => Some head | S i' => get i' tail end with
      | Some TReference, Some a => get i t = Some a /\ read st' a = read st a
      | Some TObject, Some a => exists l, get i t = Some l /\ (length st <= l)%nat /\ read st' l = read st a
      | _, _ => get i t = None
      end) /\
    (forall i j l l', i <> j -> nth_error (ty :: ts) i = Some TObject -> nth_error (ty :: ts) j = Some TObject -> get i t = Some l -> get j t = Some l' -> l <> l').
Proof.
  intros L RH RT REF OWN.
  destruct (concat_thm ty ts head tail st L RH RT REF) as (t & st' & C & LE & OLD & E & D).
  - intros l H. apply in_object in H. destruct H as (i & H1 & H2). apply (OWN i l H1 H2).
  - intros l H K. apply in_object in H. apply in_reference in K. destruct H as (i & H1 & H2), K as (j & K1 & K2). destruct (OWN i l H1 H2) as (_ & O). exact (O j K1 K2).
  - exists t, st'. split; [exact C|split; [|split; [|split]]].
    + intros k Hk N. rewrite OLD by exact Hk. destruct (existsb _ (members tail)) eqn:EX; [|reflexivity]. exfalso.
      apply existsb_exists in EX. destruct EX as ([l|l] & H1 & H2); [|discriminate]. apply Nat.eqb_eq in H2. subst l. apply in_object in H1. destruct H1 as (i & H1 & H3). exact (N i H1 H3).
    + intros i l H1 H2. assert (I : In (MObject l) (members tail)) by (apply in_object; eauto).
      assert (Hl : (l < length st)%nat) by (destruct (read st l) eqn:R; [eapply read_lt; eauto|exfalso; eapply RT; eauto]).
      rewrite OLD by exact Hl. rewrite (proj2 (existsb_exists _ _)); [reflexivity|]. exists (MObject l). split; [exact I|apply Nat.eqb_refl].
    + intros i. specialize (E i). destruct i as [|i]; [exact E|]. cbn [nth_error] in E |- *. rewrite nth_error_map in E. rewrite (get_members i tail). exact E.
    + exact D.
Qed.

Lemma make_tuple_thm args st : (forall a, In a args -> read st a <> None) ->
  exists t new, make_tuple args st = Some (t, st ++ new) /\
    (forall i, match nth_error args i with
      | Some a => exists l, get i t = Some l /\ (length st <= l)%nat /\ read (st ++ new) l = read st a
      | None => get i t = None
      end) /\
    (forall i j l l', i <> j -> get i t = Some l -> get j t = Some l' -> l <> l').
Proof.
  intros A. destruct (construct_made (map (fun _ => TObject) args) args st) as (t & new & C & M & D); auto; [now rewrite map_length|].
  exists t, new. split; [exact C|split].
  - intros i. specialize (M i). rewrite nth_error_map in M. destruct (nth_error args i); exact M.
  - intros i j l l' N Gi Gj. apply (D i j l l' N); auto.
    + rewrite nth_error_map. specialize (M i). rewrite nth_error_map in M. destruct (nth_error args i); [reflexivity|]. cbn in M. congruence.
    + rewrite nth_error_map. specialize (M j). rewrite nth_error_map in M. destruct (nth_error args j); [reflexivity|]. cbn in M. congruence.
Qed.
Lemma convert_thm ts parent st : length ts = sizeof parent -> (forall i a, get i parent = Some a -> read st a <> None) ->
  exists t new, convert ts parent st = Some (t, st ++ new) /\
    (forall i, match nth_error ts i, get i parent with
      | Some TReference, Some a => get i t = Some a
      | Some TObject, Some a => exists l, get i t = Some l /\ (length st <= l)%nat /\ read (st ++ new) l = read st a
      | _, _ => get i t = None
      end) /\
    (forall i j l l', i <> j -> nth_error ts i = Some TObject -> nth_error ts j = Some TObject -> get i t = Some l -> get j t = Some l' -> l <> l').
Proof.
  intros L A. destruct (convert_made ts parent st L A) as (t & new & args & C & N & M & D). exists t, new. split; [exact C|split; [|exact D]].
  intros i. rewrite <- N. exact (M i).
Qed.
