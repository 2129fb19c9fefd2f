(** Proofs about Races.v. *)
From Verif Require Import Races EdmDevice EdmKernel EdmKernelProofs.
From Verif Require Import Base BaseLemmas Copy CopyProofs Kernel KernelProofs KernelSafe Views JaggedKernel JaggedKernelProofs.

Lemma not_conflict a b : (forall x, within (a_ptr a) (a_len a) x -> within (a_ptr b) (a_len b) x -> False) -> ~ conflict a b.
Proof. intros H ((x & X1 & X2) & _). exact (H x X1 X2). Qed.
Lemma nth_upd_cases {A} (l : list A) i j x y : nth_error (upd l i x) j = Some y -> (i = j /\ y = x) \/ (i <> j /\ nth_error l j = Some y).
Proof.
  destruct (Nat.eq_dec i j) as [<-|D].
  - intros E. assert (L : (i < length l)%nat) by (rewrite <- (upd_length l i x); apply nth_error_Some; congruence).
    rewrite nth_error_upd_eq in E by auto. injection E as <-. auto.
  - rewrite nth_error_upd_ne by auto. auto.
Qed.

Lemma conflict_or_atomic a b (Q : Prop) : (conflict a b -> Q) ->
  (exists x, a_ptr a <= x < a_ptr a + a_len a /\ a_ptr b <= x < a_ptr b + a_len b) ->
  (a_how a = atomic_add \/ a_how a = plain_write \/ a_how b = atomic_add \/ a_how b = plain_write) ->
  ((a_how a = atomic_add \/ a_how a = atomic_load) /\ (a_how b = atomic_add \/ a_how b = atomic_load)) \/ Q.
Proof.
  intros H S W. destruct (is_atomic a && is_atomic b) eqn:E.
  - left. apply andb_true_iff in E. unfold is_atomic in E. destruct (a_how a), (a_how b); intuition congruence.
  - right. apply H. split; [exact S|]. split; [|exact E]. unfold writes. destruct (a_how a), (a_how b); intuition congruence.
Qed.
Lemma no_conflict_atomic a b : ~ conflict a b ->
  (exists x, a_ptr a <= x < a_ptr a + a_len a /\ a_ptr b <= x < a_ptr b + a_len b) ->
  (a_how a = atomic_add \/ a_how a = plain_write \/ a_how b = atomic_add \/ a_how b = plain_write) ->
  (a_how a = atomic_add \/ a_how a = atomic_load) /\ (a_how b = atomic_add \/ a_how b = atomic_load).
Proof. intros H S W. destruct (conflict_or_atomic a b False H S W) as [K|[]]. exact K. Qed.

(** ** One vector: a claimed index stays. *)
Lemma k_step_idx sz v m thr j m' thr' i t x : k_step sz v (m, thr) j = Ret (m', thr') -> nth_error thr i = Some t -> k_idx t = Some x ->
  exists t', nth_error thr' i = Some t' /\ k_idx t' = Some x.
Proof.
  intros E N X. unfold k_step in E.
  assert (K : forall u u', nth_error thr j = Some u -> (forall y, k_idx u = Some y -> k_idx u' = Some y) -> thr' = upd thr j u' ->
    exists t', nth_error thr' i = Some t' /\ k_idx t' = Some x).
  { intros u u' Nu Hu ->. destruct (Nat.eq_dec j i) as [->|D].
    - exists u'. rewrite nth_error_upd_eq by (apply nth_error_Some; congruence). split; [reflexivity|]. apply Hu. congruence.
    - exists t. rewrite nth_error_upd_ne by auto. auto. }
  destruct (nth_error thr j) as [[bs|idx bs|idx bs|idx bs]|] eqn:Nj; unfold assert in E.
  - destruct (negb _); [|discriminate]. destruct (get_bytes m (v_sizep v) 4); [|discriminate]. destruct (_ <? _); [|discriminate].
    injection E as <- <-. apply (K _ _ eq_refl) with (2 := eq_refl). discriminate.
  - destruct (_ <? _); [|discriminate]. destruct (get_bytes m _ _); [|discriminate]. injection E as <- <-. apply (K _ _ eq_refl) with (2 := eq_refl). auto.
  - injection E as <- <-. apply (K _ _ eq_refl) with (2 := eq_refl). auto.
  - injection E as <- <-. eauto.
  - injection E as <- <-. eauto.
Qed.
Lemma k_run_idx sz v sched : forall m thr m' thr' i t x, k_run sz v (m, thr) sched = Ret (m', thr') -> nth_error thr i = Some t -> k_idx t = Some x ->
  exists t', nth_error thr' i = Some t' /\ k_idx t' = Some x.
Proof.
  induction sched as [|j sched IH]; intros m thr m' thr' i t x; cbn [k_run].
  - intros E. injection E as <- <-. eauto.
  - destruct (k_step sz v (m, thr) j) as [[m1 thr1]|e|] eqn:E; cbn [bind]; try discriminate. intros R N X.
    destruct (k_step_idx _ _ _ _ _ _ _ _ _ _ E N X) as (t1 & N1 & X1). eapply IH; eauto.
Qed.

Lemma slots_apart sz p x y z : 0 < sz -> within (p + x * sz) sz z -> within (p + y * sz) sz z -> x = y.
Proof. unfold within. intros S A B. assert (~ x < y) by (intros L; assert (x + 1 <= y) by lia; nia). assert (~ y < x) by (intros L; assert (y + 1 <= x) by lia; nia). lia. Qed.

Theorem kernel_races sz v m n0 vals before mid m1 thr1 m2 thr2 i j ti tj a b : 0 < sz -> v_sizep v <> 0 -> view_size m v n0 ->
  acc m (v_ptr v) (v_cap v * sz) -> Forall (fun b => Z.of_nat (length b) = sz) vals -> apart (v_sizep v) 4 (v_ptr v) (v_cap v * sz) ->
  k_run sz v (m, map KCall vals) before = Ret (m1, thr1) -> k_run sz v (m1, thr1) mid = Ret (m2, thr2) -> i <> j ->
  nth_error thr1 i = Some ti -> nth_error thr2 j = Some tj -> In a (k_access sz v ti) -> In b (k_access sz v tj) -> ~ conflict a b.
Proof.
  intros Hsz Hv Hn Ha Hl Hap R1 R2 D N1 N2 A B.
  assert (I1 : KernelSafe.inv sz v m n0 vals m1 thr1) by (eapply KernelSafe.inv_run; [..|exact R1]; first [eassumption|eapply KernelSafe.inv_init; eassumption]).
  assert (I2 : KernelSafe.inv sz v m n0 vals m2 thr2) by (eapply KernelSafe.inv_run; [..|exact R2]; eassumption).
  destruct (KernelSafe.i_size _ _ _ _ _ _ _ I1) as (S1 & _). destruct (KernelSafe.i_size _ _ _ _ _ _ _ I2) as (S2 & _). destruct Hn as (S0 & _).
  assert (Out : forall m' thr' l u idx bs, KernelSafe.inv sz v m n0 vals m' thr' -> nth_error thr' l = Some u -> u = KWrite idx bs -> 0 <= idx < v_cap v).
  { intros m' thr' l u idx bs I N ->. destruct (KernelSafe.i_size _ _ _ _ _ _ _ I) as (Q & _). pose proof (KernelSafe.i_idx _ _ _ _ _ _ _ I l _ idx N eq_refl). lia. }
  destruct ti as [bs|idx bs|idx bs|idx bs], tj as [bs'|idx' bs'|idx' bs'|idx' bs']; cbn [k_access] in A, B;
    try (destruct A; fail); try (destruct B; fail); destruct A as [<-|[]]; destruct B as [<-|[]].
  - intros (_ & _ & C). discriminate C.
  - apply not_conflict. cbn. intros x X1 X2. pose proof (Out _ _ _ _ _ _ I2 N2 eq_refl). apply (Hap x). unfold within in *. nia.
  - apply not_conflict. cbn. intros x X1 X2. pose proof (Out _ _ _ _ _ _ I1 N1 eq_refl). apply (Hap x). unfold within in *. nia.
  - apply not_conflict. cbn. intros x X1 X2. destruct (k_run_idx _ _ _ _ _ _ _ _ _ _ R2 N1 eq_refl) as (t' & N1' & X').
    pose proof (slots_apart sz (v_ptr v) idx idx' x Hsz X1 X2) as ->.
    exact (KernelSafe.i_diff _ _ _ _ _ _ _ I2 i j t' _ idx' D N1' N2 X' eq_refl).
Qed.

(** ** Jagged vectors *)
Definition j_slot (t : jthr) : option (nat * Copy.vview * Z) :=
  match t with JIn r v t => match k_idx t with Some x => Some (r, v, x) | None => None end | JAt _ _ => None end.
Lemma jk_step_slot sz jv m thr j m' thr' i t x : jk_step sz jv (m, thr) j = Ret (m', thr') -> nth_error thr i = Some t -> j_slot t = Some x ->
  exists t', nth_error thr' i = Some t' /\ j_slot t' = Some x.
Proof.
  intros E N X. unfold jk_step in E.
  assert (K : forall u u', nth_error thr j = Some u -> (forall y, j_slot u = Some y -> j_slot u' = Some y) -> thr' = upd thr j u' ->
    exists t', nth_error thr' i = Some t' /\ j_slot t' = Some x).
  { intros u u' Nu Hu ->. destruct (Nat.eq_dec j i) as [->|D].
    - exists u'. rewrite nth_error_upd_eq by (apply nth_error_Some; congruence). split; [reflexivity|]. apply Hu. congruence.
    - exists t. rewrite nth_error_upd_ne by auto. auto. }
  destruct (nth_error thr j) as [[r bs|r v u]|] eqn:Nj.
  - destruct (jdv_at jv (Z.of_nat r) m); cbn [bind] in E; try discriminate. injection E as <- <-. apply (K _ _ eq_refl) with (2 := eq_refl). discriminate.
  - destruct (k_step sz v (m, [u]) 0) as [[m'' [|u' [|]]]|e|] eqn:Ek; cbn [bind] in E; try discriminate. injection E as <- <-.
    apply (K _ _ eq_refl) with (2 := eq_refl). intros y Hy. cbn [j_slot] in *. destruct (k_idx u) as [z|] eqn:Eu; [|discriminate].
    destruct (k_step_idx _ _ _ _ _ _ _ 0%nat _ _ Ek eq_refl Eu) as (t' & Nt & Xt). cbn [nth_error] in Nt. injection Nt as <-. rewrite Xt. exact Hy.
  - injection E as <- <-. eauto.
Qed.
Lemma jk_run_slot sz jv sched : forall m thr m' thr' i t x, jk_run sz jv (m, thr) sched = Ret (m', thr') -> nth_error thr i = Some t -> j_slot t = Some x ->
  exists t', nth_error thr' i = Some t' /\ j_slot t' = Some x.
Proof.
  induction sched as [|j sched IH]; intros m thr m' thr' i t x; cbn [jk_run].
  - intros E. injection E as <- <-. eauto.
  - destruct (jk_step sz jv (m, thr) j) as [[m1 thr1]|e|] eqn:E; cbn [bind]; try discriminate. intros R N X.
    destruct (jk_step_slot _ _ _ _ _ _ _ _ _ _ E N X) as (t1 & N1 & X1). eapply IH; eauto.
Qed.

Section Jagged.
  Variable sz : Z.
  Hypothesis Hsz : 0 < sz.
  Variable jv : jview.
  Variable views : list Copy.vview.
  Variable olds : list (list (list Z)).
  Variable vals : list (nat * list Z).
  Variable m0 : cmem.
  Hypothesis Hlen : length olds = length views.
  Hypothesis Hjs : j_size jv = Z.of_nat (length views).
  Hypothesis Hdesc : get_bytes m0 (j_ptr jv) (24 * length views) = Some (flat_map view_bytes_of views).
  Hypothesis Hvals : forall r bs, In (r, bs) vals -> (r < length views)%nat /\ Z.of_nat (length bs) = sz.
  Hypothesis Hrow : forall r v old, jrow views olds r v old -> v_sizep v <> 0 /\ 0 <= v_sizep v < 2 ^ 64 /\ 0 <= v_ptr v < 2 ^ 64 /\
    view_size m0 v (Z.of_nat (length old)) /\ apart (v_sizep v) 4 (v_ptr v) (v_cap v * sz) /\ acc m0 (v_ptr v) (v_cap v * sz) /\
    Forall (fun b => Z.of_nat (length b) = sz) old /\ get_bytes m0 (v_ptr v) (Z.to_nat (Z.of_nat (length old) * sz)) = Some (concat old).
  Hypothesis Hd1 : forall v x, In v views -> region sz v x -> within (j_ptr jv) (24 * Z.of_nat (length views)) x -> False.
  Hypothesis Hd2 : forall r1 r2 v1 v2 x, r1 <> r2 -> nth_error views r1 = Some v1 -> nth_error views r2 = Some v2 -> region sz v1 x -> region sz v2 x -> False.
  Let J := jinv sz views olds vals m0.

  Lemma j_reach m thr sched m' thr' : J m thr -> jk_run sz jv (m, thr) sched = Ret (m', thr') -> J m' thr'.
  Proof.
    intros I R. edestruct jinv_run as [(m1 & thr1 & E & I1)|(E & _)]; first [exact I|exact Hsz|exact Hlen|exact Hjs|exact Hdesc|exact Hvals|exact Hrow|exact Hd1|exact Hd2|idtac].
    - rewrite E in R. injection R as <- <-. exact I1.
    - rewrite E in R. discriminate.
  Qed.
  (** What the accesses are. *)
  Lemma j_kinds m thr i t a : J m thr -> nth_error thr i = Some t -> In a (jk_access sz jv t) ->
    (a_how a = plain_read /\ forall x, within (a_ptr a) (a_len a) x -> within (j_ptr jv) (24 * Z.of_nat (length views)) x) \/
    exists r v, nth_error views r = Some v /\
      (a = mkAccess (v_sizep v) 4 atomic_add \/ exists idx, j_slot t = Some (r, v, idx) /\ a = mkAccess (v_ptr v + idx * sz) sz plain_write /\ 0 <= idx < v_cap v).
  Proof.
    intros I N A. edestruct jinv_row_of as (v & old & Jr & _); [..|exact I|exact N|]; try eassumption. destruct t as [r bs|r v' t]; cbn [jk_access jabs fst] in A, Jr.
    - left. destruct A as [<-|[]]. split; [reflexivity|]. cbn [a_ptr a_len]. intros x X. destruct Jr as (Jr & _).
      assert (r < length views)%nat by (apply nth_error_Some; congruence). unfold within in *. lia.
    - right. pose proof (ji_view _ _ _ _ _ _ _ I i r v' t N) as Hv. assert (v' = v) as -> by (destruct Jr; congruence). exists r, v. split; [exact Hv|].
      destruct t as [bs|idx bs|idx bs|idx bs]; cbn [k_access] in A; try destruct A as [<-|[]]; try destruct A; [left; reflexivity|right].
      exists idx. split; [reflexivity|]. split; [reflexivity|]. pose proof (ji_row _ _ _ _ _ _ _ I r v old Jr) as RI.
      assert (Ea : nth_error (map jabs thr) i = Some (r, KWrite idx bs)) by (rewrite nth_error_map, N; reflexivity).
      pose proof (ri_idx _ _ _ _ _ _ _ RI i _ idx Ea eq_refl). destruct (ri_size _ _ _ _ _ _ _ RI) as (Q & _). lia.
  Qed.

  Theorem jagged_races before mid m1 thr1 m2 thr2 i j ti tj a b :
    jk_run sz jv (m0, map (fun c => JAt (fst c) (snd c)) vals) before = Ret (m1, thr1) -> jk_run sz jv (m1, thr1) mid = Ret (m2, thr2) -> i <> j ->
    nth_error thr1 i = Some ti -> nth_error thr2 j = Some tj -> In a (jk_access sz jv ti) -> In b (jk_access sz jv tj) -> ~ conflict a b.
  Proof.
    intros R1 R2 D N1 N2 A B.
    assert (I0 : J m0 (map (fun c => JAt (fst c) (snd c)) vals)).
    { eapply jinv_init; try eassumption. }
    pose proof (j_reach _ _ _ _ _ I0 R1) as I1. pose proof (j_reach _ _ _ _ _ I1 R2) as I2.
    assert (Wr : forall r v idx x, nth_error views r = Some v -> 0 <= idx < v_cap v -> within (v_ptr v + idx * sz) sz x -> region sz v x).
    { intros r v idx x _ Q W. right. unfold within in *. nia. }
    assert (Ap : forall r v x, nth_error views r = Some v -> within (v_sizep v) 4 x -> within (v_ptr v) (v_cap v * sz) x -> False).
    { intros r v x Hv X1 X2. destruct (nth_error olds r) as [old|] eqn:Eo.
      - destruct (Hrow r v old (conj Hv Eo)) as (_ & _ & _ & _ & Q & _). exact (Q x (conj X1 X2)).
      - apply nth_error_None in Eo. assert (r < length views)%nat by (apply nth_error_Some; congruence). lia. }
    destruct (j_kinds _ _ _ _ _ I1 N1 A) as [(A1 & A2)|(r & v & Hv & [->|(idx & Sx & -> & Bx)])];
    destruct (j_kinds _ _ _ _ _ I2 N2 B) as [(B1 & B2)|(r' & v' & Hv' & [->|(idx' & Sx' & -> & Bx')])].
    - intros (_ & W & _). unfold writes in W. rewrite A1, B1 in W. discriminate.
    - apply not_conflict. cbn [a_ptr a_len]. intros x X1 X2. apply (Hd1 v' x); [eapply nth_error_In, Hv'|left; exact X2|apply A2; exact X1].
    - apply not_conflict. cbn [a_ptr a_len]. intros x X1 X2. apply (Hd1 v' x); [eapply nth_error_In, Hv'|eapply Wr; eauto|apply A2; exact X1].
    - apply not_conflict. cbn [a_ptr a_len]. intros x X1 X2. apply (Hd1 v x); [eapply nth_error_In, Hv|left; exact X1|apply B2; exact X2].
    - intros (_ & _ & C). discriminate C.
    - apply not_conflict. cbn [a_ptr a_len]. intros x X1 X2. destruct (Nat.eq_dec r r') as [<-|Dr].
      + assert (v' = v) as -> by congruence. apply (Ap r v x Hv X1). unfold within in *. nia.
      + apply (Hd2 r r' v v' x Dr Hv Hv'); [left; exact X1|eapply Wr; eauto].
    - apply not_conflict. cbn [a_ptr a_len]. intros x X1 X2. apply (Hd1 v x); [eapply nth_error_In, Hv|eapply Wr; eauto|apply B2; exact X2].
    - apply not_conflict. cbn [a_ptr a_len]. intros x X1 X2. destruct (Nat.eq_dec r r') as [<-|Dr].
      + assert (v' = v) as -> by congruence. apply (Ap r v x Hv X2). unfold within in *. nia.
      + apply (Hd2 r r' v v' x Dr Hv Hv'); [eapply Wr; eauto|left; exact X2].
    - apply not_conflict. cbn [a_ptr a_len]. intros x X1 X2. destruct (Nat.eq_dec r r') as [<-|Dr].
      + assert (v' = v) as -> by congruence. pose proof (slots_apart sz (v_ptr v) idx idx' x Hsz X1 X2) as ->.
        destruct (jk_run_slot _ _ _ _ _ _ _ _ _ _ R2 N1 Sx) as (t' & N1' & Sx1).
        destruct (nth_error olds r) as [old|] eqn:Eo; [|apply nth_error_None in Eo; assert (r < length views)%nat by (apply nth_error_Some; congruence); lia].
        pose proof (ji_row _ _ _ _ _ _ _ I2 r v old (conj Hv Eo)) as RI. apply D.
        destruct t' as [|r1 v1 u1]; [discriminate|]. destruct tj as [|r2 v2 u2]; [discriminate|]. cbn [j_slot] in Sx1, Sx'.
        destruct (k_idx u1) as [y1|] eqn:K1; [|discriminate]. destruct (k_idx u2) as [y2|] eqn:K2; [|discriminate]. injection Sx1 as -> -> ->. injection Sx' as -> -> ->.
        apply (ri_diff _ _ _ _ _ _ _ RI i j u1 u2 idx'); try assumption; rewrite nth_error_map; [rewrite N1'|rewrite N2]; reflexivity.
      + apply (Hd2 r r' v v' x Dr Hv Hv'); eapply Wr; eauto.
  Qed.
End Jagged.

(** ** SoA containers *)
Lemma e_step_idx vars d dflt m thr j m' thr' i t x : e_step vars d dflt (m, thr) j = Ret (m', thr') -> nth_error thr i = Some t -> e_idx t = Some x ->
  exists t', nth_error thr' i = Some t' /\ e_idx t' = Some x.
Proof.
  intros E N X. unfold e_step in E.
  assert (K : forall u u', nth_error thr j = Some u -> (forall y, e_idx u = Some y -> e_idx u' = Some y) -> thr' = upd thr j u' ->
    exists t', nth_error thr' i = Some t' /\ e_idx t' = Some x).
  { intros u u' Nu Hu ->. destruct (Nat.eq_dec j i) as [->|D].
    - exists u'. rewrite nth_error_upd_eq by (apply nth_error_Some; congruence). split; [reflexivity|]. apply Hu. congruence.
    - exists t. rewrite nth_error_upd_ne by auto. auto. }
  destruct (nth_error thr j) as [[row|idx k row|idx row|idx k refs row|idx row]|] eqn:Nj; unfold assert in E.
  - repeat match type of E with context [if ?c then _ else UB] => destruct c; [|discriminate] | context [match ?c with Some _ => _ | None => UB end] => destruct c; [|discriminate] end.
    injection E as <- <-. apply (K _ _ eq_refl) with (2 := eq_refl). discriminate.
  - destruct (nth_error vars k) as [v|]; [destruct (nth_error (ed_vars d) k) as [[p|y|n l h inner]|]|].
    2:{ destruct (_ <? _); [|discriminate]. destruct (get_bytes m _ _); [|discriminate]. injection E as <- <-. apply (K _ _ eq_refl) with (2 := eq_refl). auto. }
    all: injection E as <- <-; apply (K _ _ eq_refl) with (2 := eq_refl); auto.
  - destruct (dev_at (rd32 m) vars d idx); cbn [bind] in E; try discriminate. injection E as <- <-. apply (K _ _ eq_refl) with (2 := eq_refl). auto.
  - destruct (nth_error vars k) as [v|]; [destruct (nth_error refs k) as [r|]; [destruct (nth k row None) as [bs|]; [destruct r as [p|y]|]|]|].
    1:{ destruct (get_bytes m _ _); [|discriminate]. injection E as <- <-. apply (K _ _ eq_refl) with (2 := eq_refl). auto. }
    1: discriminate.
    all: injection E as <- <-; apply (K _ _ eq_refl) with (2 := eq_refl); auto.
  - injection E as <- <-. eauto.
  - injection E as <- <-. eauto.
Qed.
Lemma e_run_idx vars d dflt sched : forall m thr m' thr' i t x, e_run vars d dflt (m, thr) sched = Ret (m', thr') -> nth_error thr i = Some t -> e_idx t = Some x ->
  exists t', nth_error thr' i = Some t' /\ e_idx t' = Some x.
Proof.
  induction sched as [|j sched IH]; intros m thr m' thr' i t x; cbn [e_run].
  - intros E. injection E as <- <-. eauto.
  - destruct (e_step vars d dflt (m, thr) j) as [[m1 thr1]|e|] eqn:E; cbn [bind]; try discriminate. intros R N X.
    destruct (e_step_idx _ _ _ _ _ _ _ _ _ _ _ E N X) as (t1 & N1 & X1). eapply IH; eauto.
Qed.

Theorem edm_races vars d dflt m n0 (rows : list erow) before mid m1 thr1 m2 thr2 i j ti tj a b :
  length (ed_vars d) = length vars -> ed_sizep d <> 0 -> ed_cap d < 2 ^ 32 ->
  (forall k v x, nth_error vars k = Some v -> nth_error (ed_vars d) k = Some x ->
     match x with
     | EScalar _ => True
     | EVector y => 0 < ve_sz v /\ Placement.v_cap y = ed_cap d /\ Placement.v_size y = ed_sizep d /\
         acc m (Placement.v_ptr y) (ed_cap d * ve_sz v) /\ apart (ed_sizep d) 4 (Placement.v_ptr y) (ed_cap d * ve_sz v) /\
         Z.of_nat (length (nth k dflt [])) = ve_sz v
     | EJagged _ _ _ _ => False
     end) ->
  (forall k k' v v' y y', k <> k' -> nth_error vars k = Some v -> nth_error vars k' = Some v' ->
     nth_error (ed_vars d) k = Some (EVector y) -> nth_error (ed_vars d) k' = Some (EVector y') ->
     apart (Placement.v_ptr y) (ed_cap d * ve_sz v) (Placement.v_ptr y') (ed_cap d * ve_sz v')) ->
  get_bytes m (ed_sizep d) 4 = Some (le32 n0) -> 0 <= n0 <= ed_cap d ->
  (forall row k bs, In row rows -> nth_error row k = Some (Some bs) ->
     exists v y, nth_error vars k = Some v /\ nth_error (ed_vars d) k = Some (EVector y) /\ Z.of_nat (length bs) = ve_sz v) ->
  e_run vars d dflt (m, map ECall rows) before = Ret (m1, thr1) -> e_run vars d dflt (m1, thr1) mid = Ret (m2, thr2) -> i <> j ->
  nth_error thr1 i = Some ti -> nth_error thr2 j = Some tj -> In a (e_access vars d ti) -> In b (e_access vars d tj) -> conflict a b ->
  (exists idx row row', ti = EAt idx row /\ tj = ECall row') \/ (exists idx row row', ti = ECall row' /\ tj = EAt idx row).
Proof.
  intros Hlen Hsp Hcap Hvw Hpair Hsize Hroom Hrows R1 R2 D N1 N2 A B C.
  assert (Hvec : forall k v y, vec vars d k v y -> 0 < ve_sz v /\ Placement.v_cap y = ed_cap d /\ Placement.v_size y = ed_sizep d /\
    acc m (Placement.v_ptr y) (ed_cap d * ve_sz v) /\ apart (ed_sizep d) 4 (Placement.v_ptr y) (ed_cap d * ve_sz v) /\ Z.of_nat (length (nth k dflt [])) = ve_sz v)
    by (intros k v y (V1 & V2); exact (Hvw k v _ V1 V2)).
  assert (Hjag : forall k n l h i, nth_error (ed_vars d) k <> Some (EJagged n l h i)).
  { intros k n l h i0 E. destruct (nth_error vars k) as [v|] eqn:Ev; [exact (Hvw k v _ Ev E)|].
    apply nth_error_None in Ev. assert (k < length (ed_vars d))%nat by (apply nth_error_Some; congruence). lia. }
  assert (Hpair' : forall k k' v v' y y', k <> k' -> vec vars d k v y -> vec vars d k' v' y' ->
    apart (Placement.v_ptr y) (ed_cap d * ve_sz v) (Placement.v_ptr y') (ed_cap d * ve_sz v')) by (intros k k' v v' y y' D' (V1 & V2) (V3 & V4); eapply Hpair; eauto).
  assert (Hacc : acc m (ed_sizep d) 4) by (apply (get_bytes_acc 4); eauto).
  assert (Hrows' : forall row k bs, In row rows -> nth_error row k = Some (Some bs) -> exists v y, vec vars d k v y /\ Z.of_nat (length bs) = ve_sz v).
  { intros row k bs Hi Hn. destruct (Hrows row k bs Hi Hn) as (v & y & V1 & V2 & L). exists v, y. repeat split; auto. }
  set (oldf := fun p k => match nth_error vars k, nth_error (ed_vars d) k with
    | Some v, Some (EVector y) => match get_bytes m (Placement.v_ptr y + p * ve_sz v) (Z.to_nat (ve_sz v)) with Some b => b | None => [] end
    | _, _ => [] end).
  assert (R0 : EdmKernelProofs.inv vars d dflt m n0 rows oldf m (map ECall rows) []).
  { split; try (intros [|p]; discriminate).
    - rewrite map_map. cbn [e_row]. apply map_id.
    - rewrite Z.add_0_r. exact Hsize.
    - cbn [length]. lia.
    - constructor.
    - intros l t idx N E. rewrite nth_error_map in N. destruct (nth_error rows l); [|discriminate]. injection N as <-. discriminate.
    - intros l t N. rewrite nth_error_map in N. destruct (nth_error rows l); [|discriminate]. injection N as <-. exact Logic.I.
    - intros l t idx k v y bs N E. rewrite nth_error_map in N. destruct (nth_error rows l); [|discriminate]. injection N as <-. discriminate.
    - intros p k v y Hp V. destruct (Hvec _ _ _ V) as (S1 & _ & _ & Ac & _). destruct V as (V1 & V2). unfold oldf. rewrite V1, V2.
      destruct (acc_get m (Placement.v_ptr y + p * ve_sz v) (ve_sz v) ltac:(lia)) as (ob & ->); [|reflexivity].
      apply (acc_sub m (Placement.v_ptr y) (ed_cap d * ve_sz v)); [exact Ac|nia|nia].
    - apply changes_refl.
    - apply same_acc_refl. }
  assert (Reach : forall ma thr ord sched m' thr', EdmKernelProofs.inv vars d dflt m n0 rows oldf ma thr ord -> e_run vars d dflt (ma, thr) sched = Ret (m', thr') ->
    exists ord', EdmKernelProofs.inv vars d dflt m n0 rows oldf m' thr' ord').
  { intros ma thr ord sched m' thr' I R. destruct (run_inv vars d dflt m n0 rows oldf Hlen Hsp Hcap Hvec Hjag Hpair' Hacc Hroom Hrows' sched ma thr ord I)
      as [(mb & thrb & ordb & E & Ib)|(E & _)]; rewrite E in R; [|discriminate]. injection R as <- <-. eauto. }
  destruct (Reach _ _ _ _ _ _ R0 R1) as (o1 & I1). destruct (Reach _ _ _ _ _ _ I1 R2) as (o2 & I2).
  assert (Kind : forall ma thr ord l t c, EdmKernelProofs.inv vars d dflt m n0 rows oldf ma thr ord -> nth_error thr l = Some t -> In c (e_access vars d t) ->
    (c = mkAccess (ed_sizep d) 4 atomic_add /\ exists row, t = ECall row) \/ (c = mkAccess (ed_sizep d) 4 plain_read /\ exists idx row, t = EAt idx row) \/
    c = mkAccess (ed_sizep d) 4 atomic_load \/
    exists k v y idx, vec vars d k v y /\ e_idx t = Some idx /\ 0 <= idx < ed_cap d /\ c = mkAccess (Placement.v_ptr y + idx * ve_sz v) (ve_sz v) plain_write).
  { intros ma thr ord l t c I N H. destruct t as [row|idx k row|idx row|idx k refs row|idx row]; cbn [e_access] in H.
    - destruct H as [<-|[]]. left. eauto.
    - right. right. right. destruct (nth_error vars k) as [v|] eqn:Ev; [|destruct H]. destruct (nth_error (ed_vars d) k) as [[p|y|n ll h inner]|] eqn:Ex; try destruct H as [<-|[]]; try destruct H.
      exists k, v, y, idx. split; [split; assumption|]. split; [reflexivity|]. split; [|reflexivity].
      edestruct idx_bound as (Q & _ & Q2); [..|exact I|exact N|reflexivity|]; try eassumption. lia.
    - right. replace (ed_sizep d =? 0) with false in H by lia. cbn [app] in H. destruct H as [<-|H]; [left; eauto|]. right. left.
      apply in_flat_map in H. destruct H as (x & Hx & H). apply In_nth_error in Hx. destruct Hx as (k & Hk).
      destruct x as [p|y|n ll h inner]; cbn [vec_load] in H; try destruct H.
      destruct (nth_error vars k) as [v|] eqn:Ev; [|apply nth_error_None in Ev; assert (k < length (ed_vars d))%nat by (apply nth_error_Some; congruence); lia].
      destruct (Hvec k v y (conj Ev Hk)) as (_ & _ & Es & _). rewrite Es in H. replace (ed_sizep d =? 0) with false in H by lia. destruct H as [<-|[]]. reflexivity.
    - right. right. right. destruct (nth_error vars k) as [v|] eqn:Ev; [|destruct H]. destruct (nth_error refs k) as [[p|y]|] eqn:Er; try destruct H.
      destruct (nth k row None) as [bs|] eqn:Eb; [|destruct H]. destruct H as [<-|[]].
      assert (Hrow : nth_error row k = Some (Some bs)).
      { destruct (nth_error row k) as [o|] eqn:Eo; [rewrite (nth_error_nth _ _ None Eo) in Eb; congruence|]. apply nth_error_None in Eo. rewrite nth_overflow in Eb by auto. discriminate. }
      assert (Hin : In row rows) by (rewrite <- (i_rows _ _ _ _ _ _ _ _ _ _ I); apply (in_map e_row) with (x := EFill idx k refs row); eapply nth_error_In, N).
      destruct (Hrows' row k bs Hin Hrow) as (v1 & y & V & Lb). assert (v1 = v) by (destruct V; congruence). subst v1.
      pose proof (i_refs _ _ _ _ _ _ _ _ _ _ I l _ N) as (_ & Rr). pose proof (Rr k v y V) as Er'. rewrite Er in Er'. injection Er' as ->.
      exists k, v, y, idx. split; [exact V|]. split; [reflexivity|]. split; [|reflexivity].
      edestruct idx_bound as (Q & _ & Q2); [..|exact I|exact N|reflexivity|]; try eassumption. lia.
    - destruct H. }
  assert (EC : forall k v y idx x, vec vars d k v y -> 0 <= idx < ed_cap d -> within (Placement.v_ptr y + idx * ve_sz v) (ve_sz v) x -> within (ed_sizep d) 4 x -> False).
  { intros k v y idx x V Q W W2. destruct (Hvec _ _ _ V) as (S1 & _ & _ & _ & Ap & _). apply (Ap x). unfold within in *. nia. }
  destruct C as ((x & X1 & X2) & Wr & At).
  destruct (Kind _ _ _ _ _ _ I1 N1 A) as [(-> & row & ->)|[(-> & idx & row & ->)|[->|(k & v & y & idx & V & Ex & Bx & ->)]]];
  destruct (Kind _ _ _ _ _ _ I2 N2 B) as [(-> & row' & ->)|[(-> & idx' & row' & ->)|[->|(k' & v' & y' & idx' & V' & Ex' & Bx' & ->)]]];
  cbn [a_ptr a_len] in X1, X2; try discriminate; try (exfalso; eapply EC; eassumption); eauto 8.
  exfalso. destruct (e_run_idx _ _ _ _ _ _ _ _ _ _ _ R2 N1 Ex) as (t' & N1' & Ex1).
  edestruct elem_apart as (_ & E); [..|exact V|exact V'|exact Bx|exact Bx'|exact X1|exact X2|]; try eassumption. subst idx'. apply D.
  eapply idx_inj; [..|exact I2|exact N1'|exact N2|exact Ex1|exact Ex']; eassumption.
Qed.
