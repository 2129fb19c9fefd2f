(** Proofs about the memory resources of edm::host. *)
From Verif Require Import Base HostMemory.
From Coq Require Import ZArith List Bool Arith Lia.
Import ListNotations.

Definition var_res (x : var) : nat := match x with VScalar v => vres v | VVec v => vres v | VJag v => vres v end.
Definition inner_ok (x : var) : Prop := match x with VJag v => Forall (fun w => vres w = vres v) (velems v) | _ => True end.
Definition one (x : var) : Prop := match x with VScalar v => length (velems v) = 1%nat | _ => True end.

Lemma Forall_upd : forall A (P : A -> Prop) l i x, Forall P l -> P x -> Forall P (upd l i x).
Proof. induction l as [|a l IH]; intros [|i] x H Hx; cbn; auto; inversion H; subst; constructor; auto. Qed.
Lemma nth_Forall : forall A (P : A -> Prop) l i x, Forall P l -> nth_error l i = Some x -> P x.
Proof. intros A P l i x H N. rewrite Forall_forall in H. apply H. eapply nth_error_In; eauto. Qed.
Lemma Forall_map2 : forall A B C (f : A -> B -> C) (P : A -> Prop) (Q : B -> Prop) (R : C -> Prop) l l',
  (forall a b, P a -> Q b -> R (f a b)) -> Forall P l -> Forall Q l' -> Forall R (map2 f l l').
Proof.
  induction l as [|a l IH]; intros [|b l'] H HP HQ; cbn; auto. inversion HP; inversion HQ; subst. constructor; auto.
Qed.
Lemma Forall_on : forall (P : host -> Prop) i f l, Forall P l -> (forall h, nth_error l i = Some h -> P h -> P (f h)) -> Forall P (on i f l).
Proof.
  intros P i f l H F. unfold on. destruct (nth_error l i) as [h|] eqn:N; [|exact H].
  apply Forall_upd; [exact H|]. apply F; [reflexivity|]. eapply nth_Forall; eauto.
Qed.
Lemma Forall_firstn' : forall A (P : A -> Prop) n l, Forall P l -> Forall P (firstn n l).
Proof. induction n; intros [|a l] H; cbn; auto. inversion H; subst. constructor; auto. Qed.
Lemma Forall_repeat' : forall A (P : A -> Prop) n x, P x -> Forall P (repeat x n).
Proof. induction n; intros x H; cbn; auto. Qed.
Lemma ictor_all : forall r l, Forall (fun w : vec Z => vres w = r) (map (ictor r) l).
Proof. induction l; cbn; auto. Qed.
Lemma relocate_all : forall re v, Forall (fun w : vec Z => vres w = vres v) (velems v) -> Forall (fun w => vres w = vres v) (relocate ictor re v).
Proof. intros [|] v H; unfold relocate; [apply ictor_all|exact H]. Qed.
Lemma put_all_ok : forall r old new, Forall (fun w : vec Z => vres w = r) old -> Forall (fun w => vres w = r) (put_all ictor iput r old new).
Proof.
  intros r old. induction old as [|o old IH]; intros [|x new] H; cbn; auto.
  - constructor; [reflexivity|apply ictor_all].
  - inversion H; subst. constructor; auto.
Qed.
Lemma vassign_ok : forall re d s, Forall (fun w : vec Z => vres w = vres d) (velems d) -> inner_ok (VJag (vassign ictor iput re d s)).
Proof. intros [|] d s H; cbn; [apply ictor_all|apply put_all_ok; exact H]. Qed.

(** ** Inner vectors *)
Lemma inner_change : forall re c x, inner_ok x -> inner_ok (var_change re c x).
Proof.
  intros re c x H. destruct c as [z|w|j w|j z], x as [v|v|v]; cbn; auto.
  - apply Forall_app. split; [apply relocate_all; exact H|constructor; auto].
  - destruct (nth_error (velems v) j) as [o|] eqn:N; [|exact H]. cbn. apply Forall_upd; [exact H|]. cbn. apply (nth_Forall _ _ _ _ _ H N).
  - destruct (nth_error (velems v) j) as [o|] eqn:N; [|exact H]. cbn. apply Forall_upd; [exact H|]. cbn. apply (nth_Forall _ _ _ _ _ H N).
Qed.
Lemma inner_assign_move : forall re d s, inner_ok d -> inner_ok s -> inner_ok (fst (var_assign_move re d s)) /\ inner_ok (snd (var_assign_move re d s)).
Proof.
  intros re d s Hd Hs. destruct d as [v|v|v], s as [w|w|w]; cbn; auto. split; [|constructor].
  destruct (Nat.eqb_spec (vres v) (vres w)) as [E|E]; [|apply vassign_ok; exact Hd]. cbn. rewrite E. exact Hs.
Qed.
Lemma inner_step : forall l c, Forall (fun h => Forall inner_ok (h_vars h)) l -> Forall (fun h => Forall inner_ok (h_vars h)) (step l c).
Proof.
  intros l c H. destruct c as [r addr ks|i|i|re i j|re i j|re i n|re i|re i k c]; cbn.
  - apply Forall_app. split; [exact H|]. constructor; [|constructor]. cbn. apply Forall_map. apply Forall_forall.
    intros [p q|p|] _; cbn; auto.
  - destruct (nth_error l i) as [h|] eqn:N; [|exact H]. apply Forall_app. split; [exact H|]. constructor; [|constructor]. cbn.
    apply Forall_map. apply Forall_forall. intros [v|v|v] _; cbn; auto. apply ictor_all.
  - destruct (nth_error l i) as [h|] eqn:N; [|exact H]. assert (Hh := nth_Forall _ _ _ _ _ H N). cbn in Hh.
    apply Forall_app. split; [apply Forall_upd; [exact H|]|constructor; [|constructor]]; cbn; apply Forall_map.
    + apply Forall_forall. intros [v|v|v] _; cbn; auto.
    + eapply Forall_impl; [|exact Hh]. intros [v|v|v]; cbn; auto.
  - destruct (nth_error l j) as [s|] eqn:N; [|exact H]. destruct (Nat.eqb i j); [exact H|]. apply Forall_on; [exact H|].
    intros h _ Hh. cbn. eapply (Forall_map2 _ _ _ _ inner_ok (fun _ => True)); [|exact Hh|apply Forall_forall; auto].
    intros [v|v|v] [w|w|w] Hv _; cbn; auto. apply vassign_ok; exact Hv.
  - destruct (nth_error l i) as [h|] eqn:N; [|exact H]. destruct (nth_error l j) as [s|] eqn:N'; [|exact H]. destruct (Nat.eqb i j); [exact H|].
    assert (Hh := nth_Forall _ _ _ _ _ H N). assert (Hs := nth_Forall _ _ _ _ _ H N'). cbn in Hh, Hs.
    apply Forall_upd; [apply Forall_upd; [exact H|]|]; cbn; (eapply (Forall_map2 _ _ _ _ inner_ok inner_ok); [|exact Hh|exact Hs]); intros a b Ha Hb; apply inner_assign_move; auto.
  - apply Forall_on; [exact H|]. intros h _ Hh. cbn. apply Forall_map. eapply Forall_impl; [|exact Hh]. intros [v|v|v] Hv; cbn; auto.
    apply Forall_app. split; [apply Forall_firstn', relocate_all; exact Hv|apply Forall_repeat'; reflexivity].
  - apply Forall_on; [exact H|]. intros h _ Hh. cbn. apply Forall_map. eapply Forall_impl; [|exact Hh]. intros [v|v|v] Hv; cbn; auto.
    apply relocate_all; exact Hv.
  - apply Forall_on; [exact H|]. intros h _ Hh. cbn. destruct (nth_error (h_vars h) k) as [x|] eqn:N; [|exact Hh].
    apply Forall_upd; [exact Hh|]. apply inner_change. eapply nth_Forall; eauto.
Qed.
Lemma inner_thm : forall cs, Forall (fun h => Forall inner_ok (h_vars h)) (exec cs).
Proof.
  intros cs. unfold exec. assert (G : forall l, Forall (fun h => Forall inner_ok (h_vars h)) l -> Forall (fun h => Forall inner_ok (h_vars h)) (fold_left step cs l)).
  { induction cs as [|c cs IH]; intros l H; cbn; auto. apply IH, inner_step, H. }
  apply G. constructor.
Qed.

(** ** The resource of the container *)
Definition consistent (h : host) : Prop := Forall (fun x => var_res x = h_res h) (h_vars h).
(** The commands that keep containers consistent. *)
Definition keeps_resource (l : list host) (c : cmd) : Prop :=
  match c with
  | New _ _ ks => forall k, In k ks -> match k with KScalar p q => p && q = false | KVec p => p = false | KJag => True end
  | CopyFrom i => forall h, nth_error l i = Some h -> h_res h = 0%nat
  | Assign _ i j | AssignMove _ i j => forall h s, nth_error l i = Some h -> nth_error l j = Some s -> h_res h = h_res s
  | _ => True
  end.
Lemma change_res : forall re c x, var_res (var_change re c x) = var_res x.
Proof. intros re [z|w|j w|j z] [v|v|v]; cbn; auto; destruct (nth_error (velems v) j); auto. Qed.
Lemma assign_res : forall re d s, var_res (var_assign re d s) = var_res d.
Proof. intros re [v|v|v] [w|w|w]; reflexivity. Qed.
Lemma assign_move_res : forall re d s, var_res (fst (var_assign_move re d s)) = var_res d /\ var_res (snd (var_assign_move re d s)) = var_res s.
Proof. intros re [v|v|v] [w|w|w]; cbn; auto; destruct (Nat.eqb _ _); auto. Qed.
Lemma resource_step : forall l c, Forall consistent l -> keeps_resource l c -> Forall consistent (step l c).
Proof.
  intros l c H K. destruct c as [r addr ks|i|i|re i j|re i j|re i n|re i|re i k c]; cbn in *.
  - apply Forall_app. split; [exact H|]. constructor; [|constructor]. unfold consistent. cbn. apply Forall_map. apply Forall_forall.
    intros k I. specialize (K k I). destruct k as [p q|p|]; cbn; auto; rewrite K; reflexivity.
  - destruct (nth_error l i) as [h|] eqn:N; [|exact H]. apply Forall_app. split; [exact H|]. constructor; [|constructor]. unfold consistent. cbn.
    rewrite (K h eq_refl). apply Forall_map. apply Forall_forall. intros [v|v|v] _; reflexivity.
  - destruct (nth_error l i) as [h|] eqn:N; [|exact H]. assert (Hh := nth_Forall _ _ _ _ _ H N). unfold consistent in Hh.
    apply Forall_app. split; [apply Forall_upd; [exact H|]|constructor; [|constructor]]; unfold consistent; cbn; apply Forall_map;
      (eapply Forall_impl; [|exact Hh]); intros [v|v|v]; cbn; auto.
  - destruct (nth_error l j) as [s|] eqn:N; [|exact H]. destruct (Nat.eqb i j); [exact H|]. apply Forall_on; [exact H|].
    intros h Nh Hh. unfold consistent in *. cbn. rewrite <- (K h s Nh eq_refl).
    eapply (Forall_map2 _ _ _ _ (fun x => var_res x = h_res h) (fun _ => True)); [|exact Hh|apply Forall_forall; auto].
    intros a b Ha _. rewrite assign_res. exact Ha.
  - destruct (nth_error l i) as [h|] eqn:N; [|exact H]. destruct (nth_error l j) as [s|] eqn:N'; [|exact H]. destruct (Nat.eqb i j); [exact H|].
    assert (Hh := nth_Forall _ _ _ _ _ H N). assert (Hs := nth_Forall _ _ _ _ _ H N'). unfold consistent in Hh, Hs.
    assert (E := K h s eq_refl eq_refl).
    apply Forall_upd; [apply Forall_upd; [exact H|]|]; unfold consistent; cbn;
      (eapply (Forall_map2 _ _ _ _ (fun x => var_res x = h_res h) (fun x => var_res x = h_res s)); [|exact Hh|exact Hs]); intros a b Ha Hb;
      destruct (assign_move_res re a b); congruence.
  - apply Forall_on; [exact H|]. intros h _ Hh. unfold consistent in *. cbn. apply Forall_map. eapply Forall_impl; [|exact Hh]. intros [v|v|v] Hv; cbn; auto.
  - apply Forall_on; [exact H|]. intros h _ Hh. unfold consistent in *. cbn. apply Forall_map. eapply Forall_impl; [|exact Hh]. intros [v|v|v] Hv; cbn; auto.
  - apply Forall_on; [exact H|]. intros h _ Hh. unfold consistent in *. cbn. destruct (nth_error (h_vars h) k) as [x|] eqn:N; [|exact Hh].
    apply Forall_upd; [exact Hh|]. rewrite change_res. eapply (nth_Forall _ _ _ _ _ Hh); eauto.
Qed.
Lemma resource_thm : forall cs, (forall pre c post, cs = pre ++ c :: post -> keeps_resource (exec pre) c) -> Forall consistent (exec cs).
Proof.
  intros cs. induction cs as [|c cs IH] using rev_ind; intros H; [constructor|].
  unfold exec. rewrite fold_left_app. cbn. apply resource_step.
  - apply IH. intros pre c' post E. apply (H pre c' (post ++ [c])). rewrite E, <- app_assoc. reflexivity.
  - apply (H cs c []). reflexivity.
Qed.
(** The others do not. *)
Lemma resource_copy : forall l i h x, nth_error l i = Some h -> In x (h_vars h) -> h_res h <> 0%nat ->
  exists h' y, nth_error (step l (CopyFrom i)) (length l) = Some h' /\ h_res h' = h_res h /\ In y (h_vars h') /\ var_res y = 0%nat.
Proof.
  intros l i h x N I D. cbn. rewrite N. eexists. exists (var_copy x). split; [rewrite nth_error_app2, Nat.sub_diag by lia; reflexivity|].
  split; [reflexivity|]. split; [apply in_map; exact I|destruct x; reflexivity].
Qed.
Lemma upd_nth_same : forall A (l : list A) i x y, nth_error l i = Some y -> nth_error (upd l i x) i = Some x.
Proof. intros A l. induction l; intros [|t] x y H; cbn in *; try discriminate; eauto. Qed.
Lemma upd_nth_other : forall A (l : list A) t t' x, t <> t' -> nth_error (upd l t x) t' = nth_error l t'.
Proof. intros A l. induction l; intros [|t] [|t'] x H; cbn in *; auto; try congruence. Qed.
Lemma resource_assign : forall mv re l i j h s, i <> j -> nth_error l i = Some h -> nth_error l j = Some s -> length (h_vars h) = length (h_vars s) ->
  consistent h ->
  exists h', nth_error (step l (if mv : bool then AssignMove re i j else Assign re i j)) i = Some h' /\ h_res h' = h_res s /\
    length (h_vars h') = length (h_vars h) /\ forall y, In y (h_vars h') -> var_res y = h_res h.
Proof.
  intros mv re l i j h s D Nh Ns L C. apply Nat.eqb_neq in D.
  assert (G : forall (f : var -> var -> var), (forall a b, var_res (f a b) = var_res a) -> forall la lb, length la = length lb -> Forall (fun x => var_res x = h_res h) la ->
    length (map2 f la lb) = length la /\ forall y, In y (map2 f la lb) -> var_res y = h_res h).
  { intros f F la. induction la as [|a la IH]; intros [|b lb] E H; cbn in *; try discriminate; [split; [auto|intros y []]|].
    inversion H; subst. destruct (IH lb ltac:(lia) H3) as [A B]. split; [lia|]. intros y [<-|I]; [rewrite F; auto|auto]. }
  destruct mv; cbn; rewrite ?Nh, Ns, D.
  - eexists. rewrite upd_nth_other by (apply Nat.eqb_neq in D; auto). rewrite (upd_nth_same _ _ _ _ _ Nh). split; [reflexivity|]. split; [reflexivity|].
    cbn. apply (G (fun d x => fst (var_assign_move re d x))); auto. intros a b. apply assign_move_res.
  - unfold on. rewrite Nh. eexists. rewrite (upd_nth_same _ _ _ _ _ Nh). split; [reflexivity|]. split; [reflexivity|].
    cbn. apply G; auto. intros a b. apply assign_res.
Qed.

(** ** Scalars *)
Definition keeps_scalars (c : cmd) : Prop :=
  match c with
  | New _ _ ks => forall k, In k ks -> match k with KScalar p q => p && q = false | _ => True end
  | MoveFrom _ | AssignMove _ _ _ => False
  | _ => True
  end.
Lemma put_all_length : forall r (l l' : list Z), length (put_all zctor zput r l l') = length l'.
Proof. intros r l. induction l as [|a l IH]; intros [|b l']; cbn; auto; rewrite ?map_length; auto. Qed.
Lemma one_assign : forall re d s, one d -> one s -> one (var_assign re d s).
Proof. intros [|] [v|v|v] [w|w|w] Hd Hs; cbn in *; auto; rewrite ?map_length, ?put_all_length; auto. Qed.
Lemma one_step : forall l c, Forall (fun h => Forall one (h_vars h)) l -> keeps_scalars c -> Forall (fun h => Forall one (h_vars h)) (step l c).
Proof.
  intros l c H K. destruct c as [r addr ks|i|i|re i j|re i j|re i n|re i|re i k c]; cbn in *; try contradiction.
  - apply Forall_app. split; [exact H|]. constructor; [|constructor]. cbn. apply Forall_map. apply Forall_forall.
    intros k I. specialize (K k I). destruct k as [p q|p|]; cbn; auto; rewrite K; reflexivity.
  - destruct (nth_error l i) as [h|] eqn:N; [|exact H]. assert (Hh := nth_Forall _ _ _ _ _ H N). cbn in Hh.
    apply Forall_app. split; [exact H|]. constructor; [|constructor]. cbn. apply Forall_map.
    eapply Forall_impl; [|exact Hh]. intros [v|v|v]; cbn; auto. rewrite map_length. auto.
  - destruct (nth_error l j) as [s|] eqn:N; [|exact H]. destruct (Nat.eqb i j); [exact H|]. assert (Hs := nth_Forall _ _ _ _ _ H N). cbn in Hs.
    apply Forall_on; [exact H|]. intros h Nh Hh. cbn. eapply (Forall_map2 _ _ _ _ one one); [|exact Hh|exact Hs]. intros a b; apply one_assign.
  - apply Forall_on; [exact H|]. intros h _ Hh. cbn. apply Forall_map. eapply Forall_impl; [|exact Hh]. intros [v|v|v] Hv; cbn; auto.
  - apply Forall_on; [exact H|]. intros h _ Hh. cbn. apply Forall_map. eapply Forall_impl; [|exact Hh]. intros [v|v|v] Hv; cbn; auto.
  - apply Forall_on; [exact H|]. intros h _ Hh. cbn. destruct (nth_error (h_vars h) k) as [x|] eqn:N; [|exact Hh].
    apply Forall_upd; [exact Hh|]. assert (Hx := nth_Forall _ _ _ _ _ Hh N). destruct c as [z|w|j w|j z], x as [v|v|v]; cbn; auto; destruct (nth_error (velems v) j); auto; exact I.
Qed.
Lemma one_thm : forall cs, (forall c, In c cs -> keeps_scalars c) -> Forall (fun h => Forall one (h_vars h)) (exec cs).
Proof.
  intros cs H. unfold exec. assert (G : forall l, Forall (fun h => Forall one (h_vars h)) l -> Forall (fun h => Forall one (h_vars h)) (fold_left step cs l)).
  { induction cs as [|c cs IH]; intros l Hl; cbn; auto. apply IH; [intros; apply H; right; auto|]. apply one_step; [exact Hl|apply H; left; auto]. }
  apply G. constructor.
Qed.

(** ** Values *)
Definition contents (x : var) : list (list Z) := match x with VScalar v => [velems v] | VVec v => [velems v] | VJag v => map velems (velems v) end.
Definition same_kind (x y : var) : Prop := match x, y with VScalar _, VScalar _ | VVec _, VVec _ | VJag _, VJag _ => True | _, _ => False end.
Lemma put_all_z : forall r (l l' : list Z), put_all zctor zput r l l' = l'.
Proof.
  intros r l. induction l as [|a l IH]; intros [|b l']; cbn; auto; unfold zctor, zput.
  - rewrite map_id. reflexivity.
  - f_equal. apply IH.
Qed.
Lemma put_all_i : forall r l l', map velems (put_all ictor iput r l l') = map velems l'.
Proof.
  intros r l. induction l as [|a l IH]; intros [|b l']; cbn; auto; f_equal; auto. rewrite map_map. reflexivity.
Qed.
Lemma map_ictor : forall r l, map velems (map (ictor r) l) = map velems l.
Proof. intros. rewrite map_map. reflexivity. Qed.
Lemma map_zctor : forall r l, map (zctor r) l = l.
Proof. intros. unfold zctor. apply map_id. Qed.
Lemma copy_contents : forall x, contents (var_copy x) = contents x /\ contents (fst (var_move x)) = contents x.
Proof. intros [v|v|v]; cbn; rewrite ?map_zctor, ?map_ictor; auto. Qed.
Lemma assign_contents : forall re d s, same_kind d s -> contents (var_assign re d s) = contents s /\ contents (fst (var_assign_move re d s)) = contents s.
Proof.
  intros [|] [v|v|v] [w|w|w] K; cbn in *; try contradiction; destruct (Nat.eqb _ _); cbn; rewrite ?map_zctor, ?map_ictor, ?put_all_z, ?put_all_i; auto.
Qed.
Lemma resize_contents : forall re n x, contents (var_resize re n x) =
  match x with
  | VScalar v => [velems v]
  | VVec v => [firstn n (velems v) ++ repeat 0%Z (n - length (velems v))]
  | VJag v => firstn n (map velems (velems v)) ++ repeat [] (n - length (velems v))
  end.
Proof.
  intros [|] n [v|v|v]; cbn; auto; rewrite ?map_zctor; auto; rewrite map_app, <- firstn_map; f_equal; rewrite ?map_ictor; auto;
    generalize (n - length (velems v))%nat; intro k; induction k; cbn; f_equal; auto.
Qed.
