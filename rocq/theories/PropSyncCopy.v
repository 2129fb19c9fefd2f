(** Copies of a synchronized resource: C147. *)
From Verif Require Import Base BaseLemmas SyncCopy SyncCopyProofs.

(** Two threads call the same upstream resource at the same time, one through a synchronized
    resource and one through its copy. *)
Theorem C147_refuted : exists ms objs tr s i j t t' o o' k k' u,
  make [] ms = Ret objs /\ sexec (length objs) tr s /\ nth_error objs o = Some u /\ nth_error objs o' = Some u /\
  t <> t' /\ (i < j)%nat /\ nth_error tr i = Some (mkSL t o k 2) /\ nth_error tr j = Some (mkSL t' o' k' 2) /\
  forall m, (m < length tr)%nat -> nth_error tr m <> Some (mkSL t o k 3).
Proof.
  destruct (splay_exec 2 [(0, 0); (0, 0); (0, 0); (1, 1); (1, 1); (1, 1)]%nat [] sinit
    [mkSL 0 0 0 0; mkSL 0 0 0 1; mkSL 0 0 0 2; mkSL 1 1 0 0; mkSL 1 1 0 1; mkSL 1 1 0 2]) as (s & HS); [apply se_nil|reflexivity|].
  exists [MNew 0; MCopy 0], [0; 0]%nat,
    [mkSL 0 0 0 0; mkSL 0 0 0 1; mkSL 0 0 0 2; mkSL 1 1 0 0; mkSL 1 1 0 1; mkSL 1 1 0 2], s.
  exists 2%nat, 5%nat, 0%nat, 1%nat, 0%nat, 1%nat, 0%nat, 0%nat, 0%nat.
  split; [reflexivity|]. split; [exact HS|].
  split; [reflexivity|]. split; [reflexivity|]. split; [discriminate|]. split; [lia|]. split; [reflexivity|]. split; [reflexivity|].
  intros m Hm. cbn [length] in Hm. do 6 (destruct m as [|m]; [discriminate|]). lia.
Qed.
Print Assumptions C147_refuted.

(** Calls through one object exclude each other. *)
Theorem C147_same_partial : forall n tr s i j t t' o k k', sexec n tr s -> (i < j)%nat ->
  nth_error tr i = Some (mkSL t o k 2) -> nth_error tr j = Some (mkSL t' o k' 2) ->
  exists m, (i < m < j)%nat /\ nth_error tr m = Some (mkSL t o k 3).
Proof. intros n tr s i j t t' o k k'. exact (same_object n tr s i j t t' o k k'). Qed.
Print Assumptions C147_same_partial.

(** So do calls of one upstream resource if no two objects use it. *)
Theorem C147_alone_partial : forall ms objs tr s i j t t' o o' k k' u,
  make [] ms = Ret objs -> sexec (length objs) tr s ->
  (forall p q v, nth_error objs p = Some v -> nth_error objs q = Some v -> p = q) ->
  nth_error objs o = Some u -> nth_error objs o' = Some u -> (i < j)%nat ->
  nth_error tr i = Some (mkSL t o k 2) -> nth_error tr j = Some (mkSL t' o' k' 2) ->
  exists m, (i < m < j)%nat /\ nth_error tr m = Some (mkSL t o k 3).
Proof.
  intros ms objs tr s i j t t' o o' k k' u _ HE HA Ho Ho' Hij Hi Hj. pose proof (HA o o' u Ho Ho') as <-.
  exact (same_object _ tr s i j t t' o k k' HE Hij Hi Hj).
Qed.
Print Assumptions C147_alone_partial.

(** What the constructors and assignments do to the upstream resources of the objects. *)
Theorem C147_upstream_partial : forall objs,
  (forall u, make1 objs (MNew u) = Ret (objs ++ [u])) /\
  (forall o u, nth_error objs o = Some u -> make1 objs (MCopy o) = Ret (objs ++ [u])) /\
  (forall o o' u v, nth_error objs o = Some v -> nth_error objs o' = Some u ->
     exists objs', make1 objs (MAssign o o') = Ret objs' /\ length objs' = length objs /\
       nth_error objs' o = Some u /\ forall p, p <> o -> nth_error objs' p = nth_error objs p).
Proof.
  intros objs. split; [reflexivity|]. split; [intros o u H; cbn [make1]; rewrite H; reflexivity|].
  intros o o' u v H H'. cbn [make1]. rewrite H, H'. eexists. split; [reflexivity|].
  destruct (Nat.eqb_spec o o') as [<-|N].
  - split; [reflexivity|]. split; [exact H'|reflexivity].
  - clear H' N. assert (L : (o < length objs)%nat) by (apply nth_error_Some; congruence). clear H. revert o L. induction objs as [|x l IH]; intros o L; cbn in L; [lia|].
    destruct o as [|o]; cbn.
    + split; [reflexivity|]. split; [reflexivity|]. intros [|p] Hp; [congruence|reflexivity].
    + destruct (IH o ltac:(lia)) as (I1 & I2 & I3). split; [congruence|]. split; [exact I2|].
      intros [|p] Hp; [reflexivity|]. cbn. apply I3. congruence.
Qed.
Print Assumptions C147_upstream_partial.

(** Two objects for two upstream resources, the second one first a copy of the first; the calls
    of two threads through the first one, and one through the second in between. *)
Definition sc_tr : list slabel :=
  [mkSL 0 0 0 0; mkSL 1 0 0 0; mkSL 0 0 0 1; mkSL 0 0 0 2; mkSL 2 1 0 0; mkSL 2 1 0 1; mkSL 2 1 0 2;
   mkSL 0 0 0 3; mkSL 0 0 0 4; mkSL 1 0 0 1; mkSL 1 0 0 2]%nat.
Example C147_alone_ex : exists s,
  make [] [MNew 5; MCopy 0; MNew 7; MAssign 1 2; MAssign 2 2] = Ret [5; 7; 7]%nat /\
  make [] [MNew 5; MNew 7] = Ret [5; 7]%nat /\
  (forall p q v, nth_error [5; 7]%nat p = Some v -> nth_error [5; 7]%nat q = Some v -> p = q) /\
  sexec 2 sc_tr s /\ nth_error sc_tr 3 = Some (mkSL 0 0 0 2) /\ nth_error sc_tr 10 = Some (mkSL 1 0 0 2).
Proof.
  destruct (splay_exec 2 [(0, 0); (1, 0); (0, 0); (0, 0); (2, 1); (2, 1); (2, 1); (0, 0); (0, 0); (1, 0); (1, 0)]%nat [] sinit sc_tr) as (s & HS);
    [apply se_nil|reflexivity|].
  exists s. split; [reflexivity|]. split; [reflexivity|]. split.
  { intros [|[|p]] [|[|q]] v; cbn; intros H1 H2; try congruence; try (destruct p; discriminate); destruct q; discriminate. }
  split; [exact HS|split; reflexivity].
Qed.
