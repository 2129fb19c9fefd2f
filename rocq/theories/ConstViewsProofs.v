(** Proofs about [ConstViews]. *)
From Verif Require Import Base ConstViews.
From Coq Require Import List Bool Arith Lia.
Import ListNotations.

Lemma elt_eqb_spec : forall a b, elt_eqb a b = true <-> a = b.
Proof.
  intros [c i] [c' i']. unfold elt_eqb. cbn [e_const e_id]. rewrite andb_true_iff, Bool.eqb_true_iff, Nat.eqb_eq.
  split; [intros [-> ->]; auto|intros H; injection H; auto].
Qed.
Lemma vty_eqb_spec : forall a b, vty_eqb a b = true <-> a = b.
Proof.
  intros [x|x|x] [y|y|y]; cbn [vty_eqb]; try (split; intros H; discriminate H); rewrite elt_eqb_spec; split; intros H;
    try (subst; reflexivity); injection H; auto.
Qed.
Lemma nc_spec : forall a b, is_same_nc a b = true <-> a = mkElt true (e_id b) /\ e_const b = false.
Proof.
  intros [c i] [c' i']. unfold is_same_nc. cbn [e_const e_id]. rewrite !andb_true_iff, negb_true_iff, Nat.eqb_eq.
  split; [intros [[-> ->] ->]; auto|intros [H ->]; injection H as -> ->; auto].
Qed.
Lemma elt_conv : forall t f, elt_eqb t f || is_same_nc t f = true <-> e_id t = e_id f /\ (e_const f = true -> e_const t = true).
Proof.
  intros t f. rewrite orb_true_iff, elt_eqb_spec, nc_spec. destruct t as [c i], f as [c' i']. cbn [e_const e_id]. split.
  - intros [H|[H ->]]; [injection H as -> ->; auto|injection H as -> ->; auto].
  - intros [-> H]. destruct c, c'; auto. discriminate (H eq_refl).
Qed.

Lemma F2_length : forall A B (P : A -> B -> Prop) a b, Forall2 P a b -> length a = length b.
Proof. intros A B P a b H. induction H; cbn [length]; congruence. Qed.

Section P.
  Variable base : nat -> nat -> bool.
  Hypothesis base_trans : forall a b c, base a b = true -> base b c = true -> base a c = true.

  Definition ptr_id (t f : nat) : Prop := t = f \/ base f t = true.
  Lemma ptr_id_trans : forall a b c, ptr_id a b -> ptr_id b c -> ptr_id a c.
  Proof. intros a b c [->|A] [->|B]; unfold ptr_id; auto. right. eapply base_trans; [exact B|exact A]. Qed.

  (** What a conversion does to the type of a variable. *)
  Definition conv_ok (t f : vty) : Prop :=
    match t, f with
    | TScalar t, TScalar f => ptr_id (e_id t) (e_id f) /\ (e_const f = true -> e_const t = true)
    | TVec t, TVec f | TJag t, TJag f => e_id t = e_id f /\ (e_const f = true -> e_const t = true)
    | _, _ => False
    end.
  Lemma constructible_spec : forall t f, constructible base t f = true <-> conv_ok t f.
  Proof.
    intros [t|t|t] [f|f|f]; cbn [constructible conv_ok]; try (split; [intros H; discriminate H|intros []]); try apply elt_conv.
    rewrite andb_true_iff, !orb_true_iff, Nat.eqb_eq, negb_true_iff. unfold ptr_id.
    destruct (e_const t), (e_const f); split; intros [A B]; split; auto;
      try (destruct B as [B|B]; discriminate B); try discriminate (B eq_refl).
  Qed.
  Lemma conv_ok_refl : forall t, conv_ok t t.
  Proof. intros [t|t|t]; cbn [conv_ok]; unfold ptr_id; auto. Qed.
  Lemma conv_ok_trans : forall a b c, conv_ok a b -> conv_ok b c -> conv_ok a c.
  Proof.
    intros [a|a|a] [b|b|b] [c|c|c]; cbn [conv_ok]; try tauto; intros [A B] [C D]; split; auto; try congruence.
    eapply ptr_id_trans; eauto.
  Qed.
  Lemma conv_const : forall t f, conv_ok t f -> e_const (vty_elt f) = true -> e_const (vty_elt t) = true.
  Proof. intros [t|t|t] [f|f|f]; cbn [conv_ok vty_elt]; tauto. Qed.

  Lemma all2_spec : forall g (P : vty -> vty -> Prop) a b, (forall x y, g x y = true <-> P x y) -> (all2 g a b = true <-> Forall2 P a b).
  Proof.
    intros g P a. induction a as [|x a IH]; intros [|y b] H; cbn [all2].
    - split; auto.
    - split; [discriminate|intros K; inversion K].
    - split; [discriminate|intros K; inversion K].
    - rewrite andb_true_iff, H, (IH b H). split; [intros [A B]; auto|intros K; inversion K; auto].
  Qed.
  Lemma all2_constructible : forall a b, all2 (constructible base) a b = true <-> Forall2 conv_ok a b.
  Proof. intros a b. apply all2_spec. apply constructible_spec. Qed.
  Lemma all2_same : forall a b, all2 vty_eqb a b = true <-> a = b.
  Proof.
    intros a b. rewrite (all2_spec vty_eqb eq a b vty_eqb_spec). split.
    - intros H. induction H; congruence.
    - intros <-. induction a; auto.
  Qed.
  Lemma any2_differ : forall a b, length a = length b -> (any2 (fun x y => negb (vty_eqb x y)) a b = true <-> a <> b).
  Proof.
    induction a as [|x a IH]; intros [|y b] L; cbn [length] in L; try discriminate; cbn [any2].
    - split; [discriminate|congruence].
    - rewrite orb_true_iff, negb_true_iff, (IH b) by lia. split.
      + intros [A|A] H; injection H as -> ->; [|auto]. assert (vty_eqb y y = true) by (apply vty_eqb_spec; auto). congruence.
      + intros H. destruct (vty_eqb x y) eqn:E; [|auto]. apply vty_eqb_spec in E. subst. right. congruence.
  Qed.
  Lemma enabled_spec : forall t f, edm_enabled base t f = true <-> Forall2 conv_ok t f /\ t <> f.
  Proof.
    intros t f. unfold edm_enabled. rewrite andb_true_iff, all2_constructible. split; intros [A B]; split; auto;
      apply (any2_differ t f (F2_length _ _ _ _ _ A)); exact B.
  Qed.
  Lemma memory_mono : forall t f, Forall2 conv_ok t f -> e_const (memory_elt f) = true -> e_const (memory_elt t) = true.
  Proof.
    intros t f H. unfold memory_elt. cbn [e_const]. induction H as [|x y t f C H IH]; cbn [existsb]; auto.
    rewrite !orb_true_iff. intros [E|E]; [left; eapply conv_const; eauto|auto].
  Qed.
  (** Whenever the constructor is enabled, it compiles. *)
  Lemma compiles_thm : forall t f, edm_enabled base t f = true -> edm_compiles base t f = true.
  Proof.
    intros t f H. unfold edm_compiles. rewrite H. apply constructible_spec. cbn [conv_ok memory_elt e_id]. split; auto.
    apply enabled_spec in H. destruct H as [H _]. apply (memory_mono t f H).
  Qed.
  Definition tconv (t f : ty) : Prop :=
    match t, f with
    | OneView t, OneView f => conv_ok t f
    | Container t, Container f => Forall2 conv_ok t f
    | _, _ => False
    end.
  Lemma refl_all : forall l, Forall2 conv_ok l l.
  Proof. induction l; constructor; auto using conv_ok_refl. Qed.
  Lemma convertible_spec : forall t f, convertible base t f = true <-> tconv t f.
  Proof.
    intros [t|t] [f|f]; cbn [convertible tconv]; try (split; [intros H; discriminate H|intros []]).
    - rewrite orb_true_iff, vty_eqb_spec, constructible_spec. split; [intros [->|H]; auto using conv_ok_refl|auto].
    - rewrite orb_true_iff, all2_same. split.
      + intros [->|H]; [apply refl_all|]. unfold edm_compiles in H. apply andb_true_iff in H. destruct H as [H _].
        apply enabled_spec in H. tauto.
      + intros H. destruct (all2 vty_eqb t f) eqn:E; [left; apply all2_same; auto|right]. apply compiles_thm, enabled_spec. split; auto.
        intros ->. assert (K : all2 vty_eqb f f = true) by (apply all2_same; auto). congruence.
  Qed.
  Lemma trans_all : forall a b, Forall2 conv_ok a b -> forall c, Forall2 conv_ok b c -> Forall2 conv_ok a c.
  Proof. intros a b H. induction H as [|x y a b C H IH]; intros c K; inversion K; subst; constructor; eauto using conv_ok_trans. Qed.
  Lemma convertible_trans : forall a b c, convertible base a b = true -> convertible base b c = true -> convertible base a c = true.
  Proof.
    intros a b c. rewrite !convertible_spec. destruct a, b, c; cbn [tconv]; try tauto; [apply conv_ok_trans|].
    intros H K. eapply trans_all; eauto.
  Qed.
  Lemma add_const_thm : forall s, convertible base (Container (map add_const s)) (Container s) = true.
  Proof.
    intros s. apply convertible_spec. cbn [tconv]. induction s as [|x s IH]; cbn [map]; constructor; auto.
    destruct x; cbn [add_const conv_ok e_id e_const]; unfold ptr_id; auto.
  Qed.

  (** ** Programs *)
  Variable objs : list elt.

  (** The object [o] may be accessed with type [e] through a pointer, or through a view of a vector. *)
  Definition may_ptr (e : elt) (o : nat) : Prop :=
    exists t, nth_error objs o = Some t /\ ptr_id (e_id e) (e_id t) /\ (e_const t = true -> e_const e = true).
  Definition may_vec (e : elt) (o : nat) : Prop :=
    exists t, nth_error objs o = Some t /\ e_id e = e_id t /\ (e_const t = true -> e_const e = true).
  Definition mutable (o : nat) : Prop := exists t, nth_error objs o = Some t /\ e_const t = false.
  Lemma may_vec_ptr : forall e o, may_vec e o -> may_ptr e o.
  Proof. intros e o (t & A & B & C). exists t. unfold ptr_id. auto. Qed.

  (** [D]: the types with which the arrays of inner views were made. *)
  Definition okview (D : list elt) (t : vty) (v : val) : Prop :=
    match t, v with
    | TScalar e, VObj o => may_ptr e o
    | TVec e, VObj o => may_vec e o
    | TJag e, VArr d => exists x, nth_error D d = Some x /\ e_id e = e_id x /\ (e_const x = true -> e_const e = true)
    | _, _ => False
    end.
  Definition okval (D : list elt) (t : ty) (v : val) : Prop :=
    match t, v with
    | OneView t, v => okview D t v
    | Container ts, VCont vs p => Forall2 (okview D) ts vs /\ (e_const (memory_elt ts) = false -> Forall mutable p)
    | _, _ => False
    end.
  Definition okarr (D : list elt) (a : list (list nat)) : Prop := Forall2 (fun x l => Forall (may_vec x) l) D a.
  Definition okev (e : event) : Prop :=
    match ev_elt e with Some x => may_ptr x (ev_obj e) | None => True end /\ (ev_write e = true -> mutable (ev_obj e)).
  Record inv (D : list elt) (env : list ty) (s : state) : Prop :=
    { i_env : Forall2 (okval D) env (s_vars s); i_arr : okarr D (s_arrays s); i_tr : Forall okev (s_trace s) }.

  Lemma okview_conv : forall D t f v, conv_ok t f -> okview D f v -> okview D t v.
  Proof.
    intros D [t|t|t] [f|f|f] v C H; cbn [conv_ok] in C; try tauto; destruct v as [o|d|vs p]; cbn [okview] in *; try tauto; destruct C as [A B].
    - destruct H as (x & N & P & Q). exists x. split; auto. split; [eapply ptr_id_trans; eauto|auto].
    - destruct H as (x & N & P & Q). exists x. split; auto. split; [congruence|auto].
    - destruct H as (x & N & P & Q). exists x. split; auto. split; [congruence|auto].
  Qed.
  Lemma okview_all : forall D t f, Forall2 conv_ok t f -> forall vs, Forall2 (okview D) f vs -> Forall2 (okview D) t vs.
  Proof. intros D t f H. induction H as [|x y t f C H IH]; intros vs K; inversion K; subst; constructor; eauto using okview_conv. Qed.
  Lemma okval_conv : forall D t f v, convertible base t f = true -> okval D f v -> okval D t v.
  Proof.
    intros D t f v C H. apply convertible_spec in C. destruct t as [t|t], f as [f|f]; cbn [tconv] in C; try tauto; cbn [okval] in *.
    - eapply okview_conv; eauto.
    - destruct v as [o|d|vs p]; try tauto. destruct H as [A B]. split; [eapply okview_all; eauto|].
      intros E. apply B. destruct (e_const (memory_elt f)) eqn:F; auto. rewrite (memory_mono t f C F) in E. discriminate.
  Qed.
  Lemma okview_more : forall D x t v, okview D t v -> okview (D ++ [x]) t v.
  Proof.
    intros D x [t|t|t] [o|d|vs p]; cbn [okview]; auto. intros (y & N & H). exists y. split; auto.
    rewrite nth_error_app1; auto. apply nth_error_Some. congruence.
  Qed.
  Lemma okval_more : forall D x t v, okval D t v -> okval (D ++ [x]) t v.
  Proof.
    intros D x [t|t] v; cbn [okval]; [apply okview_more|]. destruct v as [o|d|vs p]; auto. intros [A B]. split; auto.
    clear B. induction A; constructor; auto using okview_more.
  Qed.
  Lemma F2_nth : forall A B (P : A -> B -> Prop) a b i x, Forall2 P a b -> nth_error a i = Some x -> exists y, nth_error b i = Some y /\ P x y.
  Proof.
    intros A B P a b i x H. revert i. induction H as [|u v a b C H IH]; intros [|i] N; cbn [nth_error] in *; try discriminate.
    - injection N as <-. eauto.
    - auto.
  Qed.
  Lemma views_ok : forall D env vars, Forall2 (okval D) env vars -> forall rs ts vs, views_ty env rs = Some ts -> vals vars rs = Some vs -> Forall2 (okview D) ts vs.
  Proof.
    intros D env vars H rs. induction rs as [|r rs IH]; intros ts vs T V; cbn [views_ty vals] in *.
    - injection T as <-. injection V as <-. constructor.
    - destruct (nth_error env r) as [[t|t]|] eqn:N; try discriminate. destruct (views_ty env rs) as [ts'|]; try discriminate. injection T as <-.
      destruct (F2_nth _ _ _ _ _ _ _ H N) as (v & Nv & O). rewrite Nv in V. destruct (vals vars rs) as [vs'|]; try discriminate. injection V as <-.
      constructor; auto.
  Qed.
  Lemma obj_list_ok : forall D e ts vs l, forallb (fun t => constructible base (TVec e) t) ts = true -> Forall2 (okview D) ts vs -> obj_list vs = Some l -> Forall (may_vec e) l.
  Proof.
    intros D e ts vs l C H. revert l C. induction H as [|t v ts vs O H IH]; intros l C L.
    - cbn in L. injection L as <-. constructor.
    - cbn [forallb] in C. apply andb_true_iff in C. destruct C as [C C'].
      change (obj_list (v :: vs)) with (match v, obj_list vs with VObj o, Some l => Some (o :: l) | _, _ => None end) in L.
      destruct v as [o|d|ws p]; try discriminate. destruct (obj_list vs) as [l'|]; try discriminate. injection L as <-.
      apply constructible_spec in C. constructor; auto. exact (okview_conv D (TVec e) t (VObj o) C O).
  Qed.
  Lemma arr_nth : forall D a d x, okarr D a -> nth_error D d = Some x -> Forall (may_vec x) (nth d a []).
  Proof.
    intros D a d x H N. destruct (F2_nth _ _ _ _ _ _ _ H N) as (l & Nl & F). rewrite (nth_error_nth _ _ _ Nl). exact F.
  Qed.
  Lemma upd_ok : forall (P : nat -> Prop) l i o, Forall P l -> P o -> Forall P (upd l i o).
  Proof. intros P l. induction l as [|x l IH]; intros [|i] o H K; cbn [upd]; auto; inversion H; subst; constructor; auto. Qed.
  Lemma arr_upd : forall D a d l, okarr D a -> (forall x, nth_error D d = Some x -> Forall (may_vec x) l) -> okarr D (upd a d l).
  Proof.
    intros D a d l H. revert d. induction H as [|x m D a C H IH]; intros [|d] K; cbn [upd]; try constructor; auto.
    apply IH. intros y N. apply (K y). exact N.
  Qed.
  Lemma jag_mutable : forall D a d e x, okarr D a -> nth_error D d = Some x -> e_const e = false -> (e_const x = true -> e_const e = true) ->
    Forall mutable (nth d a []).
  Proof.
    intros D a d e x H N E K. eapply Forall_impl; [|eapply arr_nth; eauto]. intros o (t & A & B & C). exists t. split; auto.
    destruct (e_const t); auto. rewrite E in K. specialize (K (C eq_refl)). discriminate.
  Qed.
  Lemma view_mutable : forall D a t v, okarr D a -> okview D t v -> e_const (vty_elt t) = false -> Forall mutable (objs_of a v).
  Proof.
    intros D a [t|t|t] [o|d|vs p] H O E; cbn [okview vty_elt objs_of] in *; try tauto.
    - constructor; auto. destruct O as (x & N & _ & C). exists x. split; auto. destruct (e_const x); auto. rewrite C in E; auto.
    - constructor; auto. destruct O as (x & N & _ & C). exists x. split; auto. destruct (e_const x); auto. rewrite C in E; auto.
    - destruct O as (x & N & _ & C). eapply jag_mutable; eauto.
  Qed.
  Lemma payload_mutable : forall D a ts vs, okarr D a -> Forall2 (okview D) ts vs -> e_const (memory_elt ts) = false -> Forall mutable (flat_map (objs_of a) vs).
  Proof.
    intros D a ts vs H O. unfold memory_elt. cbn [e_const]. induction O as [|t v ts vs C O IH]; cbn [existsb flat_map]; intros E; auto.
    apply orb_false_iff in E. destruct E as [E E']. apply Forall_app. split; auto. eapply view_mutable; eauto.
  Qed.

  Definition store_ok (c : instr) : Prop := match c with Store _ _ _ e => e_const e = false | _ => True end.

  Lemma push_inv : forall D env s t v, inv D env s -> okval D t v -> inv D (env ++ [t]) (push v s).
  Proof. intros D env s t v [A B C] O. constructor; cbn [push s_vars s_arrays s_trace]; auto. apply Forall2_app; auto. Qed.
  Lemma emit_inv : forall D env s es, inv D env s -> Forall okev es -> inv D env (emit es s).
  Proof. intros D env s es [A B C] O. constructor; cbn [emit s_vars s_arrays s_trace]; auto. apply Forall_app; auto. Qed.

  Lemma elem_ok : forall D env s r e v, inv D env s -> elem_ty env r = Some e -> nth_error (s_vars s) r = Some v -> exists o, v = VObj o /\ may_ptr e o.
  Proof.
    intros D env s r e v I T N. unfold elem_ty in T. destruct (nth_error env r) as [[t|t]|] eqn:E; try discriminate.
    destruct (F2_nth _ _ _ _ _ _ _ (i_env _ _ _ I) E) as (w & Nw & O). rewrite N in Nw. injection Nw as <-. cbn [okval] in O.
    destruct t as [x|x|x]; try discriminate; injection T as ->; destruct v as [o|d|vs p]; cbn [okview] in O; try tauto; exists o; auto using may_vec_ptr.
  Qed.

  Lemma step_ok : forall D env s c env' s', inv D env s -> store_ok c -> check1 base objs env c = Some env' -> run1 s c = Some s' ->
    exists D', inv D' env' s'.
  Proof.
    intros D env s c env' s' I W C R. pose proof (i_env _ _ _ I) as IE. pose proof (i_arr _ _ _ I) as IA.
    destruct c as [o|o|rs e|rs b|r t|r i|r i|r i x e|r e|r e|r]; cbn [check1 run1 store_ok] in *.
    - destruct (nth_error objs o) as [t|] eqn:N; try discriminate. injection C as <-. injection R as <-. exists D. apply push_inv; auto.
      cbn [okval okview]. exists t. unfold ptr_id. auto.
    - destruct (nth_error objs o) as [t|] eqn:N; try discriminate. injection C as <-. injection R as <-. exists D. apply push_inv; auto.
      cbn [okval okview]. exists t. auto.
    - destruct (views_ty env rs) as [ts|] eqn:T; try discriminate. destruct (forallb _ ts) eqn:F; try discriminate. injection C as <-.
      destruct (vals (s_vars s) rs) as [vs|] eqn:V; try discriminate. destruct (obj_list vs) as [l|] eqn:L; try discriminate. injection R as <-.
      pose proof (views_ok D env _ IE rs ts vs T V) as O. exists (D ++ [e]). constructor; cbn [s_vars s_arrays s_trace].
      + apply Forall2_app.
        * clear - IE. induction IE; constructor; auto using okval_more.
        * constructor; auto. cbn [okval okview]. exists e. split; auto. rewrite <- (F2_length _ _ _ _ _ IA), nth_error_app2, Nat.sub_diag; auto.
      + apply Forall2_app; auto. constructor; auto. eapply obj_list_ok; eauto.
      + apply (i_tr _ _ _ I).
    - destruct (views_ty env rs) as [ts|] eqn:T; try discriminate. injection C as <-.
      destruct (vals (s_vars s) rs) as [vs|] eqn:V; try discriminate. injection R as <-.
      pose proof (views_ok D env _ IE rs ts vs T V) as O. exists D. apply push_inv; auto. cbn [okval]. split; auto.
      intros E. destruct b; [eapply payload_mutable; eauto|constructor].
    - destruct (nth_error env r) as [f|] eqn:N; try discriminate. destruct (convertible base t f) eqn:K; try discriminate. injection C as <-.
      destruct (F2_nth _ _ _ _ _ _ _ IE N) as (v & Nv & O). rewrite Nv in R. injection R as <-. exists D. apply push_inv; auto. eapply okval_conv; eauto.
    - destruct (nth_error env r) as [[f|ts]|] eqn:N; try discriminate. destruct (nth_error ts i) as [t|] eqn:Nt; try discriminate. injection C as <-.
      destruct (F2_nth _ _ _ _ _ _ _ IE N) as (v & Nv & O). rewrite Nv in R. destruct v as [o|d|vs p]; try discriminate. cbn [okval] in O.
      destruct O as [O _]. destruct (F2_nth _ _ _ _ _ _ _ O Nt) as (w & Nw & Ow). rewrite Nw in R. injection R as <-. exists D. apply push_inv; auto.
    - destruct (nth_error env r) as [[[e|e|e]|ts]|] eqn:N; try discriminate. injection C as <-.
      destruct (F2_nth _ _ _ _ _ _ _ IE N) as (v & Nv & O). rewrite Nv in R. destruct v as [o|d|vs p]; try discriminate. cbn [okval okview] in O.
      destruct (nth_error (nth d (s_arrays s) []) i) as [o|] eqn:No; try discriminate. injection R as <-. exists D. apply push_inv; auto. cbn [okval okview].
      destruct O as (x & Nx & A & B). pose proof (arr_nth D _ d x IA Nx) as F. rewrite Forall_forall in F.
      destruct (F o (nth_error_In _ _ No)) as (t & Nt & P & Q). exists t. split; auto. split; [congruence|auto].
    - destruct (nth_error env r) as [[[e'|e'|e']|ts]|] eqn:N; try discriminate. destruct (nth_error env x) as [[f|ts]|] eqn:Nx; try discriminate.
      destruct (elt_eqb e e' && constructible base (TVec e) f) eqn:K; try discriminate. injection C as <-. apply andb_true_iff in K. destruct K as [K1 K2].
      apply elt_eqb_spec in K1. subst e'. apply constructible_spec in K2.
      destruct (F2_nth _ _ _ _ _ _ _ IE N) as (v & Nv & O). rewrite Nv in R. destruct (F2_nth _ _ _ _ _ _ _ IE Nx) as (w & Nw & Ow). rewrite Nw in R.
      destruct v as [o|d|vs p]; try discriminate. destruct w as [o|d'|vs p]; try discriminate.
      destruct (Nat.ltb i (length (nth d (s_arrays s) []))); try discriminate. injection R as <-. cbn [okval okview] in O, Ow.
      exists D. constructor; cbn [s_vars s_arrays s_trace]; auto; [|apply (i_tr _ _ _ I)]. apply arr_upd; auto. intros y Ny.
      apply upd_ok; [eapply arr_nth; eauto|]. destruct O as (y' & Ny' & A & B). rewrite Ny in Ny'. injection Ny' as <-.
      pose proof (okview_conv D (TVec e) f (VObj o) K2 Ow) as M. cbn [okview] in M. destruct M as (t & Nt & P & Q). exists t. split; auto. split; [congruence|].
      intros X. rewrite (Q X) in W. discriminate.
    - destruct (elem_ty env r) as [e'|] eqn:T; try discriminate. destruct (elt_eqb e e') eqn:K; try discriminate. injection C as <-. apply elt_eqb_spec in K. subst e'.
      destruct (nth_error (s_vars s) r) as [v|] eqn:N; try discriminate. destruct (elem_ok D env s r e v I T N) as (o & -> & M). injection R as <-.
      exists D. apply emit_inv; auto. constructor; auto. split; cbn [ev_elt ev_obj ev_write]; auto. discriminate.
    - destruct (elem_ty env r) as [e'|] eqn:T; try discriminate. destruct (elt_eqb e e' && negb (e_const e)) eqn:K; try discriminate. injection C as <-.
      apply andb_true_iff in K. destruct K as [K K']. apply elt_eqb_spec in K. subst e'. apply negb_true_iff in K'.
      destruct (nth_error (s_vars s) r) as [v|] eqn:N; try discriminate. destruct (elem_ok D env s r e v I T N) as (o & -> & M). injection R as <-.
      exists D. apply emit_inv; auto. constructor; auto. split; cbn [ev_elt ev_obj ev_write]; auto. intros _. destruct M as (t & Nt & P & Q). exists t. split; auto.
      destruct (e_const t); auto. rewrite Q in K'; auto.
    - destruct (nth_error env r) as [[f|ts]|] eqn:N; try discriminate. destruct (e_const (memory_elt ts)) eqn:E; try discriminate. injection C as <-.
      destruct (F2_nth _ _ _ _ _ _ _ IE N) as (v & Nv & O). rewrite Nv in R. destruct v as [o|d|vs p]; try discriminate. injection R as <-.
      cbn [okval] in O. destruct O as [_ O]. specialize (O E). exists D. apply emit_inv; auto. apply Forall_forall. intros ev I'. apply in_map_iff in I'.
      destruct I' as (o & <- & I'). split; cbn [ev_elt ev_obj ev_write]; auto. intros _. rewrite Forall_forall in O. auto.
  Qed.

  Lemma run_ok : forall p D env s, inv D env s -> Forall store_ok p -> check base objs env p <> None -> Forall okev (s_trace (run s p)).
  Proof.
    induction p as [|c p IH]; intros D env s I W C; cbn [run check] in *; [apply (i_tr _ _ _ I)|]. inversion W; subst.
    destruct (check1 base objs env c) as [env'|] eqn:K; [|congruence]. destruct (run1 s c) as [s'|] eqn:R; [|apply (i_tr _ _ _ I)].
    destruct (step_ok D env s c env' s' I H1 K R) as [D' I']. eapply IH; eauto.
  Qed.
  Lemma inv0 : inv [] [] (mkState [] [] []).
  Proof. constructor; cbn [s_vars s_arrays s_trace]; constructor. Qed.

  Theorem const_thm : forall p, compiles base objs p -> (forall r i s e, In (Store r i s e) p -> e_const e = false) ->
    forall ev, In ev (trace p) ->
      exists t, nth_error objs (ev_obj ev) = Some t /\ (ev_write ev = true -> e_const t = false) /\
        match ev_elt ev with Some e => (e_id e = e_id t \/ base (e_id t) (e_id e) = true) /\ (e_const t = true -> e_const e = true) | None => True end.
  Proof.
    intros p C W ev I. assert (S : Forall store_ok p).
    { apply Forall_forall. intros c Ic. destruct c; cbn [store_ok]; auto. eapply W; eauto. }
    pose proof (run_ok p [] [] _ inv0 S C) as F. rewrite Forall_forall in F. destruct (F ev I) as [A B].
    destruct (ev_elt ev) as [e|] eqn:E.
    - destruct A as (t & N & P & Q). exists t. split; auto. split; [|split; auto]. intros X. destruct (B X) as (t' & N' & M). congruence.
    - destruct (ev_write ev) eqn:X; [destruct (B eq_refl) as (t & N & M); exists t; auto|].
      exfalso. clear - I E X. revert I. unfold trace. assert (G : forall p s, Forall (fun e => ev_elt e = None -> ev_write e = true) (s_trace s) ->
        Forall (fun e => ev_elt e = None -> ev_write e = true) (s_trace (run s p))).
      { clear. induction p as [|c p IH]; intros s H; cbn [run]; auto. destruct (run1 s c) as [s'|] eqn:R; auto. apply IH.
        destruct c as [o|o|rs e|rs b|r t|r i|r i|r i x e|r e|r e|r]; cbn [run1] in R;
          repeat match type of R with context [match ?x with _ => _ end] => destruct x; try discriminate end;
          unfold option_map in R; repeat match type of R with context [match ?x with _ => _ end] => destruct x; try discriminate end;
          injection R as <-; cbn [push emit s_trace]; auto; apply Forall_app; split; auto.
        - constructor; auto. cbn. discriminate.
        - apply Forall_forall. intros e I. apply in_map_iff in I. destruct I as (o & <- & _). auto. }
      intros I. specialize (G p (mkState [] [] []) (Forall_nil _)). rewrite Forall_forall in G. rewrite (G ev I E) in X. discriminate.
  Qed.
End P.

(** Without conversions of pointers to base classes. *)
Lemma exact_view : forall base t f, match t, f with TScalar x, TScalar y => base (e_id y) (e_id x) = false | _, _ => True end ->
  (constructible base t f = true <-> t = f \/ t = add_const f).
Proof.
  intros base t f H. rewrite constructible_spec. destruct t as [t|t|t], f as [f|f|f]; cbn [conv_ok add_const];
    try (split; [intros []|intros [K|K]; discriminate K]); destruct t as [c i], f as [c' i']; unfold ptr_id; cbn [e_id e_const] in *.
  - split.
    + intros [[->|K] L]; [|congruence]. destruct c, c'; auto. discriminate (L eq_refl).
    + intros [K|K]; injection K as -> ->; auto.
  - split.
    + intros [-> L]. destruct c, c'; auto. discriminate (L eq_refl).
    + intros [K|K]; injection K as -> ->; auto.
  - split.
    + intros [-> L]. destruct c, c'; auto. discriminate (L eq_refl).
    + intros [K|K]; injection K as -> ->; auto.
Qed.
Theorem exact_thm : forall base to from,
  (forall x y, In (TScalar x) to -> In (TScalar y) from -> base (e_id y) (e_id x) = false) ->
  (edm_enabled base to from = true <-> to <> from /\ Forall2 (fun t f => t = f \/ t = add_const f) to from).
Proof.
  intros base to from H. rewrite enabled_spec. assert (E : Forall2 (conv_ok base) to from <-> Forall2 (fun t f => t = f \/ t = add_const f) to from); [|tauto].
  revert from H. induction to as [|t to IH]; intros [|f from] H; try (split; intros K; inversion K; fail); [split; constructor|].
  assert (E : conv_ok base t f <-> t = f \/ t = add_const f).
  { rewrite <- constructible_spec. apply exact_view. destruct t as [t|t|t], f as [f|f|f]; auto. apply H; left; auto. }
  assert (F : Forall2 (conv_ok base) to from <-> Forall2 (fun t f => t = f \/ t = add_const f) to from).
  { apply IH. intros x y A B. apply H; right; auto. }
  split; intros K; inversion K; subst; constructor; tauto.
Qed.
