(** Proofs about EdmHost.v. *)
From Verif Require Import EdmHost BaseLemmas.
From Coq Require Import Arith.

Section Proofs.
  Context {A : Type}.
  Implicit Types (v : hvar A) (vs : list (hvar A)).

  (** The number of elements of a vector variable. *)
  Definition vlen v : option nat :=
    match v with HScalar _ => None | HVec _ l => Some (length l) | HJag l => Some (length l) end.
  Definition has_vector vs : Prop := exists v n, In v vs /\ vlen v = Some n.
  Definition all_of_size vs (n : nat) : Prop := forall v m, In v vs -> vlen v = Some m -> m = n.

  Lemma size_gen vs : forall n known, vs <> [] ->
    (known = true \/ has_vector vs) ->
    (forall m, all_of_size vs m -> (known = true -> m = n) -> get_host_size vs (Z.of_nat n) known = Ret (Z.of_nat m)) /\
    ((forall m, all_of_size vs m -> known = true -> m <> n) ->
     (known = true \/ forall m, ~ all_of_size vs m) -> get_host_size vs (Z.of_nat n) known = Throw length_error).
  Proof.
    induction vs as [|v rest IH]; intros n known NE K; [congruence|]. cbn [get_host_size].
    destruct v as [l|d l|l].
    - (* a scalar *)
      rewrite andb_false_r. cbn [andb]. rewrite orb_false_r.
      assert (AS : forall m, all_of_size (HScalar l :: rest) m <-> all_of_size rest m).
      { intros m. split; intros H v k Hv Ek; [apply (H v k); cbn; auto|].
        destruct Hv as [<-|Hv]; [discriminate|eauto]. }
      destruct rest as [|r rest'].
      + destruct K as [->|(v & k & [<-|[]] & Ek)]; [|discriminate]. cbn [orb]. split.
        * intros m _ Hm. now rewrite Hm.
        * intros H _. exfalso. apply (H n); [|auto|auto]. intros v k [<-|[]]; discriminate.
      + assert (K' : known = true \/ has_vector (r :: rest')).
        { destruct K as [K|(v & k & [<-|Hv] & Ek)]; [auto|discriminate|right; exists v, k; auto]. }
        destruct (IH n known ltac:(discriminate) K') as [H1 H2]. split.
        * intros m Hm. apply H1. now apply AS.
        * intros Ha Hb. apply H2; [intros m Hm; apply Ha; now apply AS|].
          destruct Hb as [Hb|Hb]; [auto|right]. intros m Hm. apply (Hb m). now apply AS.
    - (* a vector *)
      set (k := length l).
      assert (AS : forall m, all_of_size (HVec d l :: rest) m <-> (m = k /\ all_of_size rest m)).
      { intros m. split.
        - intros H. split; [symmetry; apply (H (HVec d l)); cbn; auto|]. intros v j Hv Ej. apply (H v j); cbn; auto.
        - intros [-> H] v j [<-|Hv] Ej; [now injection Ej as <-|eauto]. }
      rewrite andb_true_r, orb_true_r.
      destruct (known && negb (Z.of_nat k =? Z.of_nat n)) eqn:E.
      + apply andb_true_iff in E. destruct E as [-> E]. rewrite negb_true_iff, Z.eqb_neq in E. split; [|auto].
        intros m Hm Hn. apply AS in Hm. destruct Hm as [-> _]. rewrite Hn in E by auto. congruence.
      + assert (E' : known = true -> k = n).
        { intros ->. cbn [andb] in E. rewrite negb_false_iff, Z.eqb_eq in E. lia. }
        destruct rest as [|r rest'].
        * split.
          -- intros m Hm _. apply AS in Hm. destruct Hm as [-> _]. auto.
          -- intros Ha [Hb|Hb].
             ++ exfalso. apply (Ha k); [apply AS; split; auto; intros v j []|auto|auto].
             ++ exfalso. apply (Hb k). apply AS. split; auto. intros v j [].
        * destruct (IH k true ltac:(discriminate) (or_introl eq_refl)) as [H1 H2]. split.
          -- intros m Hm Hn. apply AS in Hm. destruct Hm as [-> Hm]. apply H1; auto.
          -- intros Ha Hb. apply H2; [|auto]. intros m Hm _ ->.
             assert (Hk : all_of_size (HVec d l :: r :: rest') k) by (apply AS; auto).
             destruct Hb as [Hb|Hb]; [apply (Ha k Hk Hb); auto|exact (Hb k Hk)].
    - (* a jagged vector *)
      set (k := length l).
      assert (AS : forall m, all_of_size (HJag l :: rest) m <-> (m = k /\ all_of_size rest m)).
      { intros m. split.
        - intros H. split; [symmetry; apply (H (HJag l)); cbn; auto|]. intros v j Hv Ej. apply (H v j); cbn; auto.
        - intros [-> H] v j [<-|Hv] Ej; [now injection Ej as <-|eauto]. }
      rewrite andb_true_r, orb_true_r.
      destruct (known && negb (Z.of_nat k =? Z.of_nat n)) eqn:E.
      + apply andb_true_iff in E. destruct E as [-> E]. rewrite negb_true_iff, Z.eqb_neq in E. split; [|auto].
        intros m Hm Hn. apply AS in Hm. destruct Hm as [-> _]. rewrite Hn in E by auto. congruence.
      + assert (E' : known = true -> k = n).
        { intros ->. cbn [andb] in E. rewrite negb_false_iff, Z.eqb_eq in E. lia. }
        destruct rest as [|r rest'].
        * split.
          -- intros m Hm _. apply AS in Hm. destruct Hm as [-> _]. auto.
          -- intros Ha [Hb|Hb].
             ++ exfalso. apply (Ha k); [apply AS; split; auto; intros v j []|auto|auto].
             ++ exfalso. apply (Hb k). apply AS. split; auto. intros v j [].
        * destruct (IH k true ltac:(discriminate) (or_introl eq_refl)) as [H1 H2]. split.
          -- intros m Hm Hn. apply AS in Hm. destruct Hm as [-> Hm]. apply H1; auto.
          -- intros Ha Hb. apply H2; [|auto]. intros m Hm _ ->.
             assert (Hk : all_of_size (HJag l :: r :: rest') k) by (apply AS; auto).
             destruct Hb as [Hb|Hb]; [apply (Ha k Hk Hb); auto|exact (Hb k Hk)].
  Qed.

  Theorem size_thm vs : has_vector vs ->
    (forall n, all_of_size vs n -> h_size vs = Ret (Z.of_nat n)) /\
    ((forall n, ~ all_of_size vs n) -> h_size vs = Throw length_error).
  Proof.
    intros HV. assert (NE : vs <> []) by (destruct HV as (v & n & Hv & _); intros ->; contradiction).
    destruct (size_gen vs 0 false NE (or_intror HV)) as [H1 H2]. unfold h_size. split.
    - intros n Hn. apply H1; [auto|discriminate].
    - intros Hn. apply H2; [intros m _; discriminate|auto].
  Qed.

  (** Either all vectors have one size, or two of them differ. *)
  Lemma all_or_differ vs : has_vector vs ->
    (exists n, all_of_size vs n) \/
    (exists v1 v2 n1 n2, In v1 vs /\ In v2 vs /\ vlen v1 = Some n1 /\ vlen v2 = Some n2 /\ n1 <> n2).
  Proof.
    intros (v0 & n0 & Hv0 & E0).
    assert (D : forall l, (forall v m, In v l -> vlen v = Some m -> m = n0) \/ exists v m, In v l /\ vlen v = Some m /\ m <> n0).
    { induction l as [|v l [IH|(v' & m & Hv & E & Ne)]].
      - left. intros v m [].
      - destruct (vlen v) as [k|] eqn:Ek.
        + destruct (Nat.eq_dec k n0) as [->|Ne]; [left|right; exists v, k; cbn; auto].
          intros v' m [<-|Hv'] Em; [congruence|eauto].
        + left. intros v' m [<-|Hv'] Em; [congruence|eauto].
      - right. exists v', m. cbn. auto. }
    destruct (D vs) as [H|(v & m & Hv & E & Ne)]; [left; exists n0; exact H|].
    right. exists v, v0, m, n0. auto.
  Qed.

  Theorem size_throws vs : has_vector vs ->
    (h_size vs = Throw length_error <->
     exists v1 v2 n1 n2, In v1 vs /\ In v2 vs /\ vlen v1 = Some n1 /\ vlen v2 = Some n2 /\ n1 <> n2).
  Proof.
    intros HV. destruct (size_thm vs HV) as [H1 H2]. split.
    - intros E. destruct (all_or_differ vs HV) as [(n & Hn)|D]; [|exact D]. rewrite (H1 n Hn) in E. discriminate.
    - intros (v1 & v2 & n1 & n2 & I1 & I2 & E1 & E2 & Ne). apply H2. intros n Hn. apply Ne.
      rewrite (Hn v1 n1 I1 E1), (Hn v2 n2 I2 E2). auto.
  Qed.

  Theorem size_returns vs z : has_vector vs ->
    (h_size vs = Ret z <-> exists n, z = Z.of_nat n /\ all_of_size vs n).
  Proof.
    intros HV. destruct (size_thm vs HV) as [H1 H2]. split.
    - intros E. destruct (all_or_differ vs HV) as [(n & Hn)|D].
      + rewrite (H1 n Hn) in E. injection E as <-. eauto.
      + apply (size_throws vs HV) in D. congruence.
    - intros (n & -> & Hn). auto.
  Qed.

  (** What resize does to one variable. *)
  Definition resized (n : nat) v v' : Prop :=
    match v, v' with
    | HScalar l, HScalar l' => l' = l
    | HVec d l, HVec d' l' =>
        d' = d /\ length l' = n /\
        (forall i, (i < n)%nat -> nth_error l' i = Some (nth i l d))
    | HJag l, HJag l' =>
        length l' = n /\ (forall i, (i < n)%nat -> nth_error l' i = Some (nth i l []))
    | _, _ => False
    end.

  Lemma list_resize_spec {B} (d : B) n l :
    length (list_resize d n l) = n /\
    (forall i, (i < n)%nat -> nth_error (list_resize d n l) i = Some (nth i l d)).
  Proof.
    unfold list_resize. rewrite app_length, firstn_length, repeat_length. split; [lia|]. intros i Hi.
    destruct (Nat.lt_ge_cases i (length l)) as [Hl|Hl].
    - rewrite nth_error_app1 by (rewrite firstn_length; lia).
      rewrite (nth_error_nth' _ d) by (rewrite firstn_length; lia). f_equal.
      rewrite <- (firstn_skipn n l) at 2. rewrite app_nth1; [auto|rewrite firstn_length; lia].
    - rewrite nth_error_app2 by (rewrite firstn_length; lia).
      rewrite nth_overflow by auto. rewrite firstn_length.
      rewrite (nth_error_nth' _ d) by (rewrite repeat_length; lia). f_equal.
      assert (G : forall m j, nth j (repeat d m) d = d) by (induction m; intros [|j]; cbn; auto). apply G.
  Qed.

  Lemma resize_gen n vs : forall k, exists vs', host_resize (fun _ => false) k n vs = (Ret tt, vs') /\ Forall2 (resized n) vs vs'.
  Proof.
    induction vs as [|v rest IH]; intros k; cbn [host_resize].
    - exists []. split; [auto|constructor].
    - destruct (IH (S k)) as (rest' & E & F). destruct v as [l|d l|l]; rewrite ?andb_false_r, E; eexists; (split; [reflexivity|]); constructor; auto; cbn [resized]; auto.
      + split; [auto|]. apply list_resize_spec.
      + apply list_resize_spec.
  Qed.

  Lemma resized_size n vs vs' : has_vector vs -> Forall2 (resized n) vs vs' -> has_vector vs' /\ all_of_size vs' n.
  Proof.
    intros HV F. split.
    - destruct HV as (v & m & Hv & E). induction F as [|a b l l' Hab F IH]; [contradiction|].
      destruct Hv as [<-|Hv].
      + exists b, n. split; [cbn; auto|]. destruct a, b; cbn in *; try contradiction; try discriminate.
        * destruct Hab as (_ & -> & _). auto.
        * destruct Hab as (-> & _). auto.
      + destruct (IH Hv) as (v' & m' & Hv' & E'). exists v', m'. cbn. auto.
    - clear HV. induction F as [|a b l l' Hab F IH]; intros v m Hv E; [contradiction|].
      destruct Hv as [<-|Hv]; [|eauto].
      destruct a, b; cbn in *; try contradiction; try discriminate; injection E as <-; [apply Hab|apply Hab].
  Qed.

  Theorem resize_thm n vs : has_vector vs ->
    exists vs', h_resize (fun _ => false) n vs = (Ret tt, vs') /\ Forall2 (resized n) vs vs' /\ h_size vs' = Ret (Z.of_nat n).
  Proof.
    intros HV. destruct (resize_gen n vs 0) as (vs' & E & F). exists vs'. split; [exact E|]. split; [exact F|].
    destruct (resized_size n vs vs' HV F) as [HV' AS]. now apply size_thm.
  Qed.

  (** A freshly made container. *)
  Theorem new_thm (ks : list (hkind A)) : has_vector (h_new ks) -> h_size (h_new ks) = Ret 0.
  Proof.
    intros HV. apply (size_thm _ HV) with (n := 0%nat). intros v m Hv E.
    unfold h_new in Hv. apply in_map_iff in Hv. destruct Hv as (k & <- & _). destruct k; cbn in E; congruence.
  Qed.

  (** Element access. *)
  Definition item_at (i : nat) v (x : hitem A) : Prop :=
    match v, x with
    | HScalar l, IElem a => l = [a]
    | HVec _ l, IElem a => nth_error l i = Some a
    | HJag l, IRow r => nth_error l i = Some r
    | _, _ => False
    end.
  Definition scalars_ok vs : Prop := forall l, In (HScalar l) vs -> exists a, l = [a].
  Theorem new_scalars (ks : list (hkind A)) : scalars_ok (h_new ks).
  Proof. intros l H. unfold h_new in H. apply in_map_iff in H. destruct H as ([d|d|] & E & _); try discriminate. injection E as <-. eauto. Qed.

  Lemma index_ok i vs : scalars_ok vs ->
    (forall v m, In v vs -> vlen v = Some m -> (i < m)%nat) -> exists xs, h_index i vs = Ret xs /\ Forall2 (item_at i) vs xs.
  Proof.
    induction vs as [|v rest IH]; intros S H; cbn [h_index].
    - exists []. split; [auto|constructor].
    - destruct IH as (xs & E & F).
      { intros l Hl. apply S. cbn. auto. }
      { intros u m Hu. apply (H u m). cbn. auto. }
      assert (G : exists x, proxy_item i v = Ret x /\ item_at i v x).
      { destruct v as [l|d l|l]; cbn [proxy_item].
        - destruct (S l (or_introl eq_refl)) as (a & ->). exists (IElem a). cbn. auto.
        - specialize (H (HVec d l) (length l) (or_introl eq_refl) eq_refl).
          destruct (nth_error l i) as [a|] eqn:En; [|apply nth_error_None in En; lia]. exists (IElem a). cbn. auto.
        - specialize (H (HJag l) (length l) (or_introl eq_refl) eq_refl).
          destruct (nth_error l i) as [a|] eqn:En; [|apply nth_error_None in En; lia]. exists (IRow a). cbn. auto. }
      destruct G as (x & Ex & Hx). exists (x :: xs). rewrite Ex. cbn [bind]. rewrite E. cbn [bind]. split; [auto|constructor; auto].
  Qed.

  Lemma index_out i vs : scalars_ok vs ->
    (exists v m, In v vs /\ vlen v = Some m /\ (m <= i)%nat) -> h_index i vs = Throw out_of_range.
  Proof.
    intros S. induction vs as [|v rest IH]; intros (u & m & Hu & E & Hm); [contradiction|]. cbn [h_index].
    assert (IH' : In u rest -> h_index i rest = Throw out_of_range).
    { intros H. apply IH; [intros l Hl; apply S; cbn; auto|eauto]. }
    destruct Hu as [->|Hu].
    - destruct u as [l|d l|l]; cbn [proxy_item]; cbn in E; [discriminate| |]; injection E as <-;
        rewrite (proj2 (nth_error_None _ _)) by auto; reflexivity.
    - rewrite (IH' Hu). destruct v as [l|d l|l]; cbn [proxy_item].
      + destruct (S l (or_introl eq_refl)) as (a & ->). reflexivity.
      + destruct (nth_error l i); reflexivity.
      + destruct (nth_error l i); reflexivity.
  Qed.

  Theorem at_thm n i vs : has_vector vs -> scalars_ok vs -> all_of_size vs n ->
    ((i < n)%nat -> exists xs, h_at i vs = Ret xs /\ h_index i vs = Ret xs /\ Forall2 (item_at i) vs xs) /\
    ((n <= i)%nat -> h_at i vs = Throw out_of_range /\ h_index i vs = Throw out_of_range).
  Proof.
    intros HV S AS. unfold h_at. rewrite (proj1 (size_thm vs HV) n AS). cbn [bind]. split; intros Hi.
    - destruct (index_ok i vs S) as (xs & E & F).
      { intros v m Hv Em. rewrite (AS v m Hv Em). auto. }
      exists xs. replace (Z.of_nat i >=? Z.of_nat n) with false by (symmetry; rewrite Z.geb_leb; apply Z.leb_gt; lia). auto.
    - replace (Z.of_nat i >=? Z.of_nat n) with true by (symmetry; rewrite Z.geb_leb; apply Z.leb_le; lia). split; [auto|].
      apply index_out; [auto|]. destruct HV as (v & m & Hv & Em). exists v, m. split; [auto|]. split; [auto|]. rewrite (AS v m Hv Em). auto.
  Qed.

  (** get_data. *)
  Theorem data_thm n vs : has_vector vs -> all_of_size vs n -> Z.of_nat n < 2 ^ 32 ->
    exists d, h_get_data vs = Ret d /\ fst d = Z.of_nat n /\ length (snd d) = length vs /\ capacities_match d = true.
  Proof.
    intros HV AS Hn. unfold h_get_data. rewrite (proj1 (size_thm vs HV) n AS). cbn [bind].
    exists (Z.of_nat n mod 2 ^ 32, map var_capacity vs). cbn [fst snd].
    rewrite Z.mod_small by lia. repeat split; [apply map_length|].
    unfold capacities_match. cbn [fst snd]. apply forallb_forall. intros c Hc. apply in_map_iff in Hc. destruct Hc as (v & <- & Hv).
    destruct v as [l|d l|l]; cbn [var_capacity]; [auto| |].
    - rewrite (AS (HVec d l) (length l) Hv eq_refl). rewrite Z.mod_small by lia. apply Z.eqb_refl.
    - rewrite (AS (HJag l) (length l) Hv eq_refl). apply Z.eqb_refl.
  Qed.

  (** A failing resize. *)
  Theorem resize_fails fails n vs vs' e :
    h_resize fails n vs = (Throw e, vs') -> e = bad_alloc /\
    exists k, Forall2 (resized n) (firstn k vs) (firstn k vs') /\ skipn k vs' = skipn k vs /\ (k < length vs)%nat.
  Proof.
    unfold h_resize. generalize 0%nat. revert vs'. induction vs as [|v rest IH]; intros vs' j H; cbn [host_resize] in H; [discriminate|].
    set (r := match v with
              | HScalar _ => Some v
              | HVec d l => if Nat.ltb (length l) n && fails j then None else Some (HVec d (list_resize d n l))
              | HJag l => if Nat.ltb (length l) n && fails j then None else Some (HJag (list_resize [] n l))
              end) in H.
    destruct r as [v'|] eqn:Er.
    - destruct (host_resize fails (S j) n rest) as [o rest'] eqn:E. injection H as -> <-.
      destruct (IH _ _ E) as (-> & k & F & Sk & Lk). split; [auto|]. exists (S k). cbn [firstn skipn length].
      split; [|split; [auto|lia]]. constructor; [|exact F]. subst r. destruct v as [l|d l|l].
      + injection Er as <-. cbn. auto.
      + destruct (Nat.ltb (length l) n && fails j); [discriminate|]. injection Er as <-. cbn. split; [auto|apply list_resize_spec].
      + destruct (Nat.ltb (length l) n && fails j); [discriminate|]. injection Er as <-. cbn. apply list_resize_spec.
    - injection H as <- <-. split; [auto|]. exists 0%nat. cbn. split; [constructor|split; [auto|lia]].
  Qed.
End Proofs.

Lemma resize_refuted :
  ~ (forall (fails : nat -> bool) n (vs vs' : list (hvar Z)) e z,
       h_size vs = Ret z -> h_resize fails n vs = (Throw e, vs') -> exists z', h_size vs' = Ret z').
Proof.
  intros H.
  destruct (H (fun k => Nat.eqb k 1) 2%nat [HVec 0 [5]; HVec 0 [6]] [HVec 0 [5; 0]; HVec 0 [6]] bad_alloc 1) as (z' & E); try reflexivity.
  discriminate E.
Qed.
